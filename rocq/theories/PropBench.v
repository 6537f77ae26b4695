(** * Theorems about the benchmark programs

    [pigeon_file n], [pigeon_py n], [queens_file n], [amazons_file n] and [sat_file n] are the files
    written by pigeon_script.cc, pigeonhole_script.py, Nqueens.cc, Namazons-generator.hs and
    nqueens_sat.cc; [color_file N skip t] is what coloring_script.py makes of the graph file [t],
    [parse_results t] what parse_results.cc makes of the output [t] of the solver.
    [describes p n d good]: the models of [p] are the assignments of values below [d] to the
    variables [1 .. n] with the property [good]. *)

From Coq Require Import Ascii String Permutation.
From Verif Require Import Spec Outcome State ModelBuild ModelSearch Observe Cases TextSpec ModelText ModelRead CliSpec ModelCli EncodeSpec ModelEncode
  ModelB2f Text Encode FileCases ModelMenu ModelMain MainSpec MainFacts BenchSpec ModelBench Bench Bench2 Bench3 Bench4 Bench5 Bench6 BenchRuns.
#[local] Open Scope char_scope.
#[local] Open Scope list_scope.
#[local] Open Scope Z_scope.

(** ** The solver on a puzzle

    A file whose problem describes a puzzle: the solver prints a solution of the puzzle, or that
    there is none, or runs out of time. *)

Theorem C54_puzzle args c m w f t p n d good :
  describes p n d good -> ready p t -> dispatch args = Ok (SolveFinite c m) -> c_file c = Some f -> files_of w f = Some t -> 0 <= c_clause_size c ->
  missing_return w = true ->
  exists N v rest ds us bs es k r,
    (v = txt "SAT" /\ (exists a ls, (forall x, 1 <= x <= n -> 0 <= a x < d) /\ good a /\ rest = model_lines (c_log c) ls /\
        if lazy_of c then forall l, In l ls -> lit_holds a l else Permutation ls (lines_of n a)) \/
     v = txt "UNSAT" /\ rest = [] /\ (forall a, (forall x, 1 <= x <= n -> 0 <= a x < d) -> ~ good a) \/
     v = txt "TIMEOUT" /\ rest = [] /\ exists i, late_at w (c_time c) i = true) /\
    forall fuel, (N <= fuel)%nat ->
      main fuel args w =
      Ok (mkRan (solver_screen f (time1 w) (time2 w) (time3 w) ((if c_log c then logged w else []) ++ early c m v)
                   (answer_lines v ds us bs es n k r ++ rest)) 0 (files_of w)).
Proof. apply puzzle_run. Qed.
Print Assumptions C54_puzzle.

(** ** C54: pigeon_script.cc *)

Theorem C54_documented n : 1 <= n ->
  exists p, documented_as (txt "cnf") p (pigeon_file n) /\ describes p n (n - 1) (fun a => pairwise n a apart) /\ ~ satisfiable p.
Proof.
  intro Hn. exists (qproblem n (n - 1) (pigeon_quads n (n - 1))). split; [apply pigeon_documented; auto|].
  split; [apply pigeon_describes; lia|apply pigeon_unsat; auto].
Qed.
Print Assumptions C54_documented.

Theorem C54_run args c m w f n :
  dispatch args = Ok (SolveFinite c m) -> c_file c = Some f -> files_of w f = Some (pigeon_file n) -> 0 <= c_clause_size c -> missing_return w = true ->
  3 <= n -> (n - 1) * (n * (n - 1)) <= 2 * int_max ->
  exists N v d u b e k r,
    (v = txt "UNSAT" \/ v = txt "TIMEOUT" /\ exists i, late_at w (c_time c) i = true) /\
    forall fuel, (N <= fuel)%nat ->
      main fuel args w =
      Ok (mkRan (solver_screen f (time1 w) (time2 w) (time3 w) ((if c_log c then logged w else []) ++ early c m v)
                   (answer_lines v d u b e n k r)) 0 (files_of w)).
Proof. apply pigeon_run. Qed.
Print Assumptions C54_run.

Theorem C54_files f t : In (f, t) pigeon_main -> exists n, 15 <= n <= 20 /\ f = txt "pgn" ++ num n /\
  exists p, ready p t /\ describes p n (n - 1) (fun a => pairwise n a apart).
Proof.
  unfold pigeon_main. intro H. apply in_map_iff in H. destruct H as (n & E & Hn). apply in_loop in Hn.
  assert (f = txt "pgn" ++ num n) by congruence. assert (t = pigeon_file n) by congruence. subst. clear E. exists n.
  split; [lia|]. split; auto. eexists. split; [apply pigeon_ready; [lia|unfold int_max; nia]|apply pigeon_describes; lia].
Qed.
Print Assumptions C54_files.

Theorem C54_names : map fst pigeon_main = map txt ["pgn15"; "pgn16"; "pgn17"; "pgn18"; "pgn19"; "pgn20"]%string.
Proof. unfold pigeon_main. rewrite map_map. reflexivity. Qed.
Print Assumptions C54_names.

(** The file for four pigeons, which is the file benchmarks/Pigeonhole/pgn4 of the repository. *)
Definition pgn4 : text := unlines (map txt ["c This is a pigeonhole problem with 4 pigeons and 3 holes"; "p cnf 4 18";
  "d 1 3"; "d 2 3"; "d 3 3"; "d 4 3";
  "2!=0 1!=0 0"; "3!=0 1!=0 0"; "3!=0 2!=0 0"; "4!=0 1!=0 0"; "4!=0 2!=0 0"; "4!=0 3!=0 0";
  "2!=1 1!=1 0"; "3!=1 1!=1 0"; "3!=1 2!=1 0"; "4!=1 1!=1 0"; "4!=1 2!=1 0"; "4!=1 3!=1 0";
  "2!=2 1!=2 0"; "3!=2 1!=2 0"; "3!=2 2!=2 0"; "4!=2 1!=2 0"; "4!=2 2!=2 0"; "4!=2 3!=2 0"]%string).
Example C54_case : pigeon_file 4 = pgn4 /\ verdict_of (solve_file 200 NonChrono (nc VSIDS) never 0 pgn4) = Some (UNSAT, 5, None).
Proof. split; vm_compute; reflexivity. Qed.

(** ** C55: pigeonhole_script.py

    The files have no [d] lines, so that every literal is outside the table of variables. *)

Theorem C55_python f t : In (f, t) pigeon_py_main -> forall fuel m c clk r, solve_file fuel m c clk r t = Undef OobAtom.
Proof.
  unfold pigeon_py_main. intro H. apply in_map_iff in H. destruct H as (n & E & Hn). apply in_loop in Hn.
  assert (t = pigeon_py n) by congruence. subst. intros. apply py_undefined; unfold int_max; nia.
Qed.
Print Assumptions C55_python.

Theorem C55_any_size n fuel m c clk r : 2 <= n <= int_max -> (n - 1) * (n * (n - 1)) <= 2 * int_max ->
  solve_file fuel m c clk r (pigeon_py n) = Undef OobAtom.
Proof. apply py_undefined. Qed.
Print Assumptions C55_any_size.

Example C55_case : pigeon_py 3 = txt "c This is a pigeonhole problem with 3 pigeons and 2 holes" ++ [LF] ++ txt "p cnf 3 6" ++
  List.concat (map (fun l => LF :: txt l) ["1!=0 2!=0 0"; "1!=0 3!=0 0"; "2!=0 3!=0 0"; "1!=1 2!=1 0"; "1!=1 3!=1 0"; "2!=1 3!=1 0"]%string).
Proof. vm_compute. reflexivity. Qed.

(** ** C56: Nqueens.cc *)

Theorem C56_queens n : 2 <= n <= 800 -> exists p, ready p (queens_file n) /\ describes p n n (fun a => pairwise n a queens_apart).
Proof. intro Hn. eexists. split; [apply queens_ready; auto|apply queens_describes; lia]. Qed.
Print Assumptions C56_queens.

(** The problem line comes last, which the documented format does not allow. *)
Theorem C56_not_documented n p : 1 <= n -> ~ documented p (queens_file n).
Proof. apply queens_not_documented. Qed.
Print Assumptions C56_not_documented.

(** The file benchmarks/Nqueens/instances/4queens of the repository. *)
Definition queens4 : text := unlines (map txt ["d 1 4"; "d 2 4"; "d 3 4"; "d 4 4";
  "2!=0 1!=0 0"; "3!=0 1!=0 0"; "3!=0 2!=0 0"; "4!=0 1!=0 0"; "4!=0 2!=0 0"; "4!=0 3!=0 0";
  "2!=1 1!=1 0"; "3!=1 1!=1 0"; "3!=1 2!=1 0"; "4!=1 1!=1 0"; "4!=1 2!=1 0"; "4!=1 3!=1 0";
  "2!=2 1!=2 0"; "3!=2 1!=2 0"; "3!=2 2!=2 0"; "4!=2 1!=2 0"; "4!=2 2!=2 0"; "4!=2 3!=2 0";
  "2!=3 1!=3 0"; "3!=3 1!=3 0"; "3!=3 2!=3 0"; "4!=3 1!=3 0"; "4!=3 2!=3 0"; "4!=3 3!=3 0"; "c diagonals";
  "2!=0 1!=1 0"; "2!=1 1!=0 0"; "2!=1 1!=2 0"; "2!=2 1!=1 0"; "2!=2 1!=3 0"; "2!=3 1!=2 0"; "3!=0 1!=2 0";
  "3!=1 1!=3 0"; "3!=2 1!=0 0"; "3!=3 1!=1 0"; "3!=0 2!=1 0"; "3!=1 2!=0 0"; "3!=1 2!=2 0"; "3!=2 2!=1 0";
  "3!=2 2!=3 0"; "3!=3 2!=2 0"; "4!=0 1!=3 0"; "4!=3 1!=0 0"; "4!=0 2!=2 0"; "4!=1 2!=3 0"; "4!=2 2!=0 0";
  "4!=3 2!=1 0"; "4!=0 3!=1 0"; "4!=1 3!=0 0"; "4!=1 3!=2 0"; "4!=2 3!=1 0"; "4!=2 3!=3 0"; "4!=3 3!=2 0";
  "p cnf 4 52"]%string).
Example C56_case : queens_file 4 = queens4 /\ verdict_of (solve_file 200 NonChrono (nc BK) never 0 queens4) = Some (SAT, 2, Some true).
Proof. split; vm_compute; reflexivity. Qed.

(** ** C57: Namazons-generator.hs *)

Theorem C57_amazons n : 2 <= n <= 600 -> exists p, ready p (amazons_file n) /\ describes p n n (fun a => pairwise n a amazons_apart).
Proof. intro Hn. eexists. split; [apply amazon_ready; auto|apply amazon_describes; lia]. Qed.
Print Assumptions C57_amazons.

Example C57_case : verdict_of (solve_file 200 NonChrono (nc BK) never 0 (amazons_file 3)) = Some (UNSAT, 4, None) /\
  firstn 7 (getlines [] (amazons_file 3)) = map txt ["c 3 amazons. see https://de.wikipedia.org/wiki/Damenproblem#Andere_Figuren";
    "c one variable per row, value is the column to place an amazon:"; "d 1 3"; "d 2 3"; "d 3 3"; "c Only one amazon per column:"; "1!=0 2!=0 0"]%string.
Proof. split; vm_compute; reflexivity. Qed.

(** ** C58: nqueens_sat.cc *)

(** The clauses say that the board is right; the variable of row [i] and column [j] is
    [i * N + j + 1]. *)
Theorem C58_board N b : 0 <= N -> cnf_holds b (sat_cnf N) <-> queens_board N (fun i j => b (i * N + j + 1)).
Proof. apply sat_board. Qed.
Print Assumptions C58_board.

(** The file is a Boolean DIMACS file followed by an empty line. *)
Theorem C58_file N : 1 <= N -> exists t, sat_file N = t ++ [LF] /\ bool_cnf (N * N) (sat_cnf N) /\
  dimacs (N * N) (Z.of_nat (length (sat_cnf N))) (sat_cnf N) t.
Proof. intro HN. exists (sat_body N). split; [apply sat_text|]. split; [apply sat_bool; auto|apply sat_dimacs; auto]. Qed.
Print Assumptions C58_file.

(** The converter keeps the empty line, and the solver reads it as an empty clause: with -wl this
    is undefined behaviour, and without it a model is never confirmed. *)
Theorem C58_converted N : 1 <= N <= 200 -> exists t, boolean2finite (sat_file N) = Ok (t ++ [LF]) /\ readable (finite_of (N * N) (sat_cnf N)) t /\
  forall fuel m c clk r rep s,
    (watch c = true -> solve_file fuel m c clk r (t ++ [LF]) = Undef OobClause) /\
    (solve_file fuel m c clk r (t ++ [LF]) = Ok (rep, s) -> r_verdict rep = SAT -> r_verified rep = Some false).
Proof.
  intro HN. destruct (queens_converted N HN) as (t & E1 & E2 & R & LB & ls & HL & E). exists t. split; auto. split; auto.
  intros. apply (converted_run N); auto.
Qed.
Print Assumptions C58_converted.

Example C58_case : sat_file 2 = unlines (map txt ["p cnf 4 10"; "1 2  0"; "-1 -2  0"; "3 4  0"; "-3 -4  0"; "1 3  0"; "-1 -3  0"; "2 4  0"; "-2 -4  0";
    "-1 -4  0"; "-2 -3  0"; ""]%string) /\
  exists t, boolean2finite (sat_file 1) = Ok t /\ verdict_of (solve_file 50 NonChrono (nc BK) never 0 t) = Some (SAT, 0, Some false) /\
    solve_file 50 NonChrono (wl BK) never 0 t = Undef OobClause.
Proof. split; [vm_compute; reflexivity|]. eexists. split; [vm_compute; reflexivity|]. split; vm_compute; reflexivity. Qed.

(** ** C59: coloring_script.py *)

Theorem C59_documented N skip n es t : 0 <= n -> 0 <= N -> graph_file n (Z.of_nat (length es)) es t ->
  (forall u v, In (u, v) es -> 1 <= u <= n /\ 1 <= v <= n) ->
  exists t' p, color_file N skip t = (t', true) /\ documented_as (txt "cnf") p t' /\ describes p n N (proper es).
Proof.
  intros Hn HN G HE. destruct (color_documented N skip n es t Hn HN G) as (t' & E & D). exists t', (color_problem_of N n es).
  split; auto. split; auto. apply color_describes; auto.
Qed.
Print Assumptions C59_documented.

(** The number of edges need not be that of the problem line for the solver to accept the file. *)
Theorem C59_ready N skip n m es t : 0 <= n <= int_max -> 2 <= N <= int_max -> 0 <= m * N <= int_max -> N * Z.of_nat (length es) <= int_max ->
  (forall u v, In (u, v) es -> 1 <= u <= n /\ 1 <= v <= n /\ u <> v) -> graph_file n m es t -> lines_below 3000 t ->
  exists t' p, color_file N skip t = (t', true) /\ ready p t' /\ describes p n N (proper es).
Proof.
  intros Hn HN Hm HL HE G LB. destruct (color_ready N skip n m es t Hn HN Hm HL HE G LB) as (t' & E & R). exists t', (color_problem_of N n es).
  split; auto. split; auto. apply color_describes; [lia|]. intros u v Q. specialize (HE u v Q). tauto.
Qed.
Print Assumptions C59_ready.

(** With -s, a graph file with an error should leave no file behind; it leaves the clauses. *)
Theorem C59_skip_refuted : exists N t, color_file N true t = (unlines (map txt ["1!=0 2!=0 0"; "1!=1 2!=1 0"]%string), false).
Proof. exists 2, (unlines (map txt ["p edge 2 1"; "e 1 2"; "x"]%string)). vm_compute. reflexivity. Qed.
Print Assumptions C59_skip_refuted.

Example C59_case : let t := unlines (map txt ["c a triangle"; "p edge 3 3"; "e 1 2"; "e 1 3"; "e 2 3"]%string) in
  let t' := unlines (map txt ["c a triangle"; "p cnf 3 6"; "d 1 2"; "d 2 2"; "d 3 2"; "1!=0 2!=0 0"; "1!=0 3!=0 0"; "2!=0 3!=0 0";
    "1!=1 2!=1 0"; "1!=1 3!=1 0"; "2!=1 3!=1 0"]%string) in
  graph_file 3 3 [(1, 2); (1, 3); (2, 3)] t /\ color_file 2 false t = (t', true) /\
  verdict_of (solve_file 100 NonChrono (nc BK) never 0 t') = Some (UNSAT, 1, None).
Proof.
  split; [|split; vm_compute; reflexivity].
  exists (txt "edge"), (map txt ["c a triangle"; "p edge 3 3"; "e 1 2"; "e 1 3"; "e 2 3"]%string), (txt "p edge 3 3"), (map txt ["e 1 2"; "e 1 3"; "e 2 3"]%string).
  split; [split; [apply no_lf_ok; reflexivity|left; reflexivity]|]. split; [reflexivity|]. split; [eexists; reflexivity|]. split; [left; reflexivity|].
  split; [vm_compute; reflexivity|]. repeat constructor; try (eexists; reflexivity).
Qed.

(** Numbers may have a sign and underscores between digits, as in Python. *)
Example C59_numbers : color_file 1 false (unlines (map txt ["p edge +0_3 1_2"; "e 1 +3"]%string)) =
    (unlines (map txt ["p cnf 3 12"; "d 1 1"; "d 2 1"; "d 3 1"; "1!=0 3!=0 0"]%string), true) /\
  color_file 1 false (unlines (map txt ["p edge 3 1__2"]%string)) = ([], false).
Proof. split; vm_compute; reflexivity. Qed.

(** ** C60: parse_results.cc and Output.cc

    The table for the output of a run followed by the text [t] of further runs: the seven
    statistics, and after a model a line feed, a NUL and a blank; after UNSAT and TIMEOUT the line
    is not ended. *)

Theorem C60_row p lazy verbose late f t1 t2 t3 log w rest d u b e n m r t : calm (f ++ t1 ++ t2 ++ t3 ++ log) -> right p lazy verbose late w rest ->
  parse_results (solver_screen f t1 t2 t3 log (answer_lines w d u b e n m r ++ rest) ++ t) =
  row [d; u; b; e; n; m; r] ++ (match rest with [] => [] | _ => [LF; NUL; SP] end) ++ parse_results t.
Proof. apply right_row. Qed.
Print Assumptions C60_row.

Theorem C60_output t : output_cc t = filter (fun a => negb (Ascii.eqb a LF)) (parse_results t) ++ [LF].
Proof. apply output_filter. Qed.
Print Assumptions C60_output.

(** Two unsatisfiable problems: one line. *)
Example C60_case : let run := solver_screen (txt "f") (txt "0.1") (txt "0.2") (txt "0.3") [] (answer_lines (txt "UNSAT") 1 2 3 4 5 6 0) in
  calm (txt "f" ++ txt "0.1" ++ txt "0.2" ++ txt "0.3") /\ ~ In LF (parse_results (run ++ run)) /\ parse_results (run ++ run) = row [1; 2; 3; 4; 5; 6; 0; 1; 2; 3; 4; 5; 6; 0].
Proof.
  split; [intros a Ha; cbn in Ha; repeat (destruct Ha as [<-|Ha]; [split; discriminate|]); destruct Ha|].
  split; [vm_compute; intuition discriminate|vm_compute; reflexivity].
Qed.
