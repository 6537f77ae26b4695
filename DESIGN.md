# Formal model of mvl-solver: design

The code under study is `/repo/src` (the program built by the root makefile).
The second solver `/repo/bitvec` (literals are sets of values) is the subject of C67-C79;
the first version `/repo/original_solver` of C80-C85.  The prover is Coq 8.16.1, standard
library only.

## 1. Method

* `theories/Spec.v` is the independent specification: literals, clauses, problems,
  assignments, satisfiability, well-formedness.  It mentions nothing of the solver.
* `theories/Model*.v` is an executable Gallina transcription of the C++ functions,
  one Gallina function per C++ function, with file/line citations.  No proofs there.
* `theories/*Spec.v` extend the specification: texts and files, options, encodings, the
  decision stack, scores, statistics, what is printed.
* `theories/Prop*.v` hold the theorems of `properties.jsonl`, each followed by
  `Print Assumptions`, and next to them examples showing that the hypotheses are met.
* The other files hold invariants and lemmas.

### Modelling conventions
* C++ `int` is `Z` (no overflow) except where a property is about overflow (`Fact`).
* Results are in `outcome A := Ok a | Undef reason | OutOfFuel`.  Every array / vector
  access whose index is not a loop index of the same container is guarded; an index out of
  bounds yields `Undef`.  Loops that are not bounded by a container use fuel; the theorems
  state that for all sufficiently large fuel the result is `Ok`.
* In the searches the clock is an oracle `nat -> bool`: check number k saw the limit exceeded.  In the
  programs it is a reading `nat -> Z`, in seconds and rounded up, compared with the option -time.
* Heap objects (clauses, variables) are numbered; arrays become functions guarded by bounds
  checks; `vector`/`list` become lists; the watch lists (doubly linked) become lists of
  clause ids (`ModelHeap.v` has the linked structure, `ModelObj.v` the clause objects).
* `learnClause` lacks a `return` although declared to return a pointer.  The model has a
  switch `lenient`: `false` makes the flow off the end `Undef NoReturn` (the C++ standard),
  `true` lets it continue (what the program text obviously intends).  Main theorems are
  about `lenient = true`; C39 is about `lenient = false`.
* A machine (`ModelMain.v`) gives the files, which of them can be written, standard input,
  the numbers returned by rand(), the clock, the printed times and the logged text.
* Texts are lists of characters; files are texts; a name identifies a file (no links).

### Modelled
All functions of `/repo/src` reached from `main`: command line, menu, reading and building a
formula, the three searches with all heuristics, learning, restarts, verification, printing,
the statistics, the two encoders, the converter, the two generators.  Of `/repo/benchmarks`: the
generators pigeon_script.cc, pigeonhole_script.py, Nqueens.cc, nqueens_sat.cc,
Namazons-generator.hs, the converter coloring_script.py (folders: `ModelFolders.v`, with convert_folders.py), the drivers Test.cc of queens and pigeons (`ModelDrive.v`) and the programs
parse_results.cc and Output.cc that make tables (`ModelBench.v`).  The files of the repository
written by four of these (pgn4, 4queens, 4amazons.txt, myciel3_N2.dimacs) were compared with
what the model computes and are the same; two of them are examples in `PropBench.v`.
Of `/repo/bitvec`: building the formula from the lines of a file, the search with restarts and both
ways to decide, learning, verification, printed sets and statistics (`ModelBit.v`), and main with
command line, menu, reading and the printed text (`ModelBitMain.v`); the search once more with its
records and clauses as allocated objects (`ModelBitMem.v`).
Of `/repo/original_solver`: building the formula, both searches with their conflict analysis, the
check of the model and the numbers reported (`ModelOrig.v`); main with command line, menu, reading,
the check of the numbers in the file and the printed text (`ModelOrigMain.v`).  Its encoders,
converter and generators (GenBenFunc.cc, LinearEncode.cc, QuadraticEncode.cc, Boolean2Finite.cc)
differ from those of `/repo/src` in comments and includes only, so their models are used as they are.
Of `/repo/tests`: the generators of random problems fixed_clauses.py (the same text as random_sat.py)
and constant_probability.py (`ModelRandom.v`).

### Not modelled
* What is logged with -verbose: it is a parameter of the machine.
* The clock: its reading at each check is a parameter of the machine, and so are the printed times.
* Exhaustion of memory, destructors (but see C63-C65, C79), output errors after a file was opened.
* Overflow of counters in the search: `int` is `Z` there; C66 bounds the counters, so that the
  theorems speak of runs for which the bounds fit.  The reader, the encoders, the
  converter, the generators and the command line do have overflow as undefined behaviour.
* Of `/repo/benchmarks`: the driver Test_SAT.cc, which starts another solver, the
  Pebbling scripts, the parsing of the options of coloring_script.py and convert_folders.py, a call
  of the former that is ended by a signal or meets an entry it cannot open.
* Of `/repo/bitvec`: overflow of its counters (`Z` there; C88 bounds them).
* Of `/repo/original_solver`: NonChronoBacktrack, checkConflict and checkPureLiteral (never called),
  overflow of counters (`Z` there; C89 bounds the counters of a report).
* Of `/repo/tests`: the scripts that run another solver (fc_experiment.py, cp_experiment.py, stat.py,
  cp_stat.py), the copy of that solver, an unfinished driver (experiment_script.cc).
* The pointer structure of `vector` and `list`; the doubly linked watch lists are lists except in
  `ModelHeap.v`, which is shown to give the same runs (C63), and in `ModelBitMem.v` (C79), where the
  clauses are objects too.

## 2. Properties and how each is proved

| id | modelled by | proof |
|----|-------------|-------|
| C01-C03 | `nc_search` (NonChronoBacktrack and callees), counters, trail, learning | invariants over the loop: trail, reasons, counters exact, closedness of earlier levels; termination by (uncovered literal sets, unassigned atoms) lexicographically |
| C04-C06 | `wl_search` (WatchedLiterals and callees) | same trail/learning invariants, watched-literal invariant instead of counters |
| C07-C09 | `chrono` (ChronoBacktrack) | induction on number of unassigned atoms, exact restoration |
| C10 | all three | corollary: each verdict equals satisfiability |
| C11 | `print_model` | decision stack invariant; printed in the order of assignment |
| C12 | `print_model` with lazy heuristic | refuted by a run; partial positive result: the assigned atoms are sufficient |
| C13 | `verify_model` | direct induction; plus corollary of SAT soundness; for any file: no step of a search loses a clause (Keep.v) |
| C14 | clock oracle | main theorems are stated with the oracle |
| C15 | `learn_clause` | invariant of the search |
| C16 | `resolve` | direct, for all assignments |
| C17 | `analyze_conflict` | UIP invariant on the trail |
| C18 | `undo_theory`, `wundo_theory` | exact characterisation |
| C19 | `choose_bk` and all count updates | invariant: count = occurrences in unsatisfied clauses |
| C20 | `choose_vsids`, `choose_vsids_pos` over `SpecFloat` binary64 | scores stay non-negative numbers; fold lemma |
| C21 | restart counter | loop invariant |
| C22 | statistics | loop invariant |
| C23 | character-level reader `read_file` | printer/reader round trip, for every text that is `accepted`: problem lines anywhere with any numbers, clause lines with or without the final 0; `readable` and `documented` texts are special cases |
| C24,C25 | reader | refuted by witnesses; positive part in C23; a long line ends the file (C24_cut); the effect of a blank line for all files (Keep.v) |
| C26,C27 | solver runs | refuted by witnesses; the hypotheses `2 <= domain` and `NoDup` of the main theorems are thus necessary |
| C62 | solver runs with domains of any size | the invariants of C01-C15 hold for domains of any size; the assignments counted are those of the problem with domains of at least two values (`WideSpec.v`) |
| C28 | `parse_command_line` | induction over argument vectors |
| C29,C30 | `linear_encode` | explicit translation of assignments both ways; arithmetic of the header |
| C31,C32 | `quadratic_encode` | same; overflow witness |
| C33,C34 | `boolean2finite` | translation of assignments; refutation witnesses |
| C35-C38 | `genben_fin`, `genben_bool` with an arbitrary random stream | induction over the clauses, fuel for the rejection loop |
| C39 | strict mode | witness run; exactly the runs with a backtrack are undefined (Strict.v) |
| C40 | composition of reader, option decoding and search | corollary |
| C41 | `DECISIONS`, `UNITS`, `ENTAILS` against the decision stack | per step: the counters grow by exactly the entries added |
| C42 | `checkTime` calls | induction over the loop: one call per iteration |
| C43 | VSIDS score updates | scores as a fold over the clauses; induction over the loop |
| C44 | lazy heuristics | first-match lemmas at decision states |
| C45 | decision stack | invariants of the trail plus `every level has an entry`; least-index argument for `every level has a decision` |
| C46 | counters, watches | invariants CI, UI, WCS read off at loop heads and decisions |
| C47 | `main`, `run_solver`, `report_text` | composition of C40, C11-C14, C21, C22 with the printing functions |
| C48,C49 | `run_convert` | composition of C29, C31, C33 with option decoding |
| C50 | `dispatch` | induction over the options |
| C51 | `menu` | induction over the entered numbers; invariant `stream not good, choice not 0` for non-termination |
| C52 | `main` | inversion of runs; a stored name follows its option |
| C53 | several runs of `main` | the encoding as a Boolean problem without repeated literals; composition |
| C54-C57 | the generators of `/repo/benchmarks` (`ModelBench.v`) | clause lists as loops over ranges, membership characterised; counting for the header; pigeonhole principle |
| C58 | `sat_file` | the clauses row by row, column by column, diagonal by diagonal against the board; composition with `boolean2finite` and C25 |
| C59 | `color_file` | induction over the lines of the graph file |
| C60 | `parse_results`, `output_cc` | line by line over the text of C47 |
| C63 | `h_solve`: the search with linked lists of records that are allocated and deleted (`ModelHeap.v`) | simulation of `solve`, function by function; the list of a literal and its addresses as invariant (Heap.v, HeapSim.v) |
| C64 | `h_destroy` | refuted; exact condition |
| C65 | `o_solve`: the learning searches with clause objects that are allocated and deleted (`ModelObj.v`) | simulation of `solve`; ownership of the objects as invariant (Obj.v) |
| C66 | counters of `solve` at the end and at each iteration | atoms on the decision stack are distinct; counted atoms = entries + what conflicts removed (Range.v, RangeFacts.v) |
| C67-C69 | `bsolve` (`ModelBit.v`) | trail of set literals as ghost list, the current domains are its fold; each false literal of a clause has a last change that made it false; reasons were unit; learned clause asserting; watches; measure of the unexplored sets (Bit*.v); the check for any state (BitSafe.v) |
| C70-C72 | `bmain` (`ModelBitMain.v`) | C67 and C68 composed with reading (`Read.v`) and printing; specification of the screen in `BitMainSpec.v` (BitMainFacts.v) |
| C73-C75 | states of `bsolve` between and inside iterations (`bit_reached`, `bit_decision_at`, `bit_conflict_at` in `BitStepSpec.v`) | scores: frame lemmas, fold over learned clauses (BitScores.v); choices: first of the maxima of a fold, watch invariant of C67; conflicts: resolution steps of the analysis matched to the relation `set_learns`, changes taken back as a cut of the ghost trail (BitNode.v, BitLearn.v, BitStep.v) |
| C76 | `bbuild`, `bmain` | case distinction along the lines of the file with the declared sizes as invariant (BitWide.v, BitWideMain.v) |
| C77 | `bsolve`, `bmain` | the invariant of C67 with a conflict possible before the first decision; a run with other settings that ends without a restart equals one with the settings of C67 (BitMany.v, BitEnds.v, BitEndsMain.v) |
| C78 | states of `bsolve`, `bmain` | watched literals belong to their clauses, so each resolution is sound in any state; arithmetic of the restart counter (BitClauses.v, BitClausesMain.v) |
| C79 | `m_solve` | the model with linked lists and clause objects simulates the one with lists, step by step; the relation keeps the addresses of each list and the objects in use (BitHeap.v, BitMemSim.v, BitMemRuns.v, BitMemFacts.v) |
| C80 | `o_solve` of `ModelOrig.v`, recursive search | simulation by the state of the solver of `/repo/src` for unit propagation, with the difference that counters drift; invariant for each level; measure of the tree below a decision; numbers of decisions and backtracks, and how far the counters drift (OrigBound.v) (OrigSim.v, OrigProp.v, OrigChrono.v, OrigInit.v, OrigSolve.v) |
| C81 | `o_solve`, learning search | the same invariant at level 0 with any clauses added; reasons belong to clauses (OrigCid.v, OrigNC.v); learned atoms are distinct and the counters drift by a bounded amount per undo (OrigDrift.v), so the run ends |
| C82 | `o_solve` | two runs in step, one ignoring the deletion (OrigPtr.v); more fuel gives the same result (OrigMono.v) |
| C83-C85 | `o_main` (`ModelOrigMain.v`) | C80-C82 composed with reading (`Read.v`) and printing; specification of options and screen in `OrigMainSpec.v`; the loops over the options of both programs in step (OrigMainFacts.v) |
| C86 | `main`, `bmain`, `o_main` | number of time checks against decisions and conflicts: C42, and an invariant of the loop of bitvec (BitTick.v); induction over the searches of the first version (OrigTick.v), its first check (TimeFacts.v) |
| C87 | `fixed_dimacs`, `fixed_main`, `constant_dimacs` (`ModelRandom.v`) | induction over the loops, for every sequence of random numbers; conversely a sequence for every formula of the right shape; the conversion by B2f.v, the effect of a blank line by Keep.v |
| C88 | counters of `bsolve` at the end and at each iteration | values in the current domains + values on the implication nodes of a variable never exceed its domain; each counted reduction takes a value away, only a conflict gives values back (BitRange.v) |
| C89 | counters of `o_solve` at the end | potential: what is counted + queued clauses + for every open value one and its places in the clauses; a reduction pays for itself, only a backtrack gives values back (OrigRange.v) |
| C90 | `coloring_script`, `convert_folders` | induction over the listing of the folder, result names are injective on *.col; induction over the calls; C59 for each file (Folders.v) |
| C91 | `queens_test`, `pigeon_test` | copying keeps text without NUL; induction over the series with C54 and C56 for each run; C92 for solutions; C60 for the table (Drive.v) |
| C92 | `queens_file`, `sat_cnf`, `main` | boards given by formulas for n even, by n mod 6, without queens on the diagonal, and one more queen in the corner for n odd; C54 and C58 (Queens.v) |
| C93 | `amazons_file`, `main` | three runs of rows with steps of three, by n mod 6, with one or two exchanges, for n from 22; a table up to 25; a search proved complete for n below 10 (ManyAmazons.v, Amazons.v); C54 |
| C61 | `analyze`, `max_lit`, `assign_watched`, `resolve` | inductive relation of the resolution along the stack; shown deterministic (Uip.v) |

## 3. Trusted base

* The Coq 8.16.1 kernel, including its virtual machine (`vm_compute`) for concrete cases.
* `Print Assumptions` prints `Closed under the global context` for every theorem of the
  `Prop*.v` files: no axiom is used, neither of the standard library nor of our own.  (coqchk
  lists the axioms of standard library files that are loaded, such as `ssrunder`; no
  theorem uses them.)
* The reading of the C++ text recorded in the `Model*.v` files, each definition citing file and
  lines.  The C and C++ library functions (getline, sscanf, atoi, strtok, istream, getchar,
  set, list) are modelled in `ModelText.v`, `ModelMenu.v`, `ModelB2f.v` after their standards.
* As a check of that reading, `crosscheck/search.py` is a second transcription of the search code
  (Formula.cc, Variable.cc, Clause.cc), written from the C++ text without looking at the model,
  with linked watch lists and checks for accesses out of bounds and after free.
  `crosscheck/compare.py SEED N [wild]` runs both on random problems and compares verdict, all
  statistics, printed model in order, final decision stack and all clauses.  About 1,600 runs over
  all searches, heuristics and restart settings, including ill-formed problems, gave no difference.
  `crosscheck/bitsearch.py` and `compare_bit.py SEED N` do the same for the second solver (about
  1,240 runs, no difference).
* `double` is `SpecFloat` binary64 with rounding to nearest (`ModelHeur.v`).

## 4. Assumptions

The hypotheses of the main theorems, each necessary:

* `wf p`: domains of at least two values, literals inside their domains, no empty clause
  (C26 and C62 say what happens with smaller domains, C25 with empty clauses).
* `no_repeats p` for the learning searches (C27).
* `fits_int p` and `lines_below 3000 t` for reading a file (C24, C25).
* `fits64 p` and `lone p` for the second solver: domains of at most 64 values, at most one clause
  about a single variable (C67).
* `lenient = true`: flowing off the end of `learnClause` continues (C39).
