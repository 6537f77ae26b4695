{"id": "C01", "title": "nc: a SAT answer is right", "statement": "When `-solvenc` (counter-based, no -wl) reports SAT on a well-formed input whose clauses have no repeated literal, the input is satisfiable, and the atoms the solver holds assigned at that moment satisfy every input clause.", "quantifier": "every well-formed problem (any number of variables, any domain sizes, any clauses), every decision heuristic the command line offers, every restart threshold, every sequence of clock readings", "why_tests_cant": "A wrong SAT depends on the exact interleaving of propagation, learning, back-jumping and counter repair; the set of inputs and search histories is infinite.", "anchors": ["src/Formula.cc: NonChronoBacktrack, reduceTheory, satisfyClauses, removeLiteral, undoTheory, unitPropagation", "src/SolveFinite.cc: SolveFinite"]}
{"id": "C02", "title": "nc: an UNSAT answer is right", "statement": "When `-solvenc` reports UNSAT on a well-formed input whose clauses have no repeated literal, no assignment of the declared variables to values of their domains satisfies all clauses.", "quantifier": "every well-formed problem (any number of variables, any domain sizes, any clauses), every decision heuristic the command line offers, every restart threshold, every sequence of clock readings", "why_tests_cant": "UNSAT is a statement about all assignments; a test can only compare with another solver on finitely many inputs.", "anchors": ["src/Formula.cc: NonChronoBacktrack, analyzeConflict, resolve, learnClause, backtrackLevel", "src/SolveFinite.cc: SolveFinite"]}
{"id": "C03", "title": "nc: the search always finishes, without undefined behaviour", "statement": "On every well-formed input whose clauses have no repeated literal, `-solvenc` without -wl finishes in finitely many steps with SAT, UNSAT or (only if the clock said so) TIMEOUT; it never recurses for ever in conflict analysis, never indexes an array or vector out of bounds and never registers one clause object under two ids.", "quantifier": "every well-formed problem (any number of variables, any domain sizes, any clauses), every decision heuristic the command line offers, every restart threshold, every sequence of clock readings", "why_tests_cant": "Termination and absence of out-of-bounds access are statements about all executions; in particular restarts make the termination argument global (no clause is ever learnt twice).", "anchors": ["src/Formula.cc: NonChronoBacktrack, analyzeConflict, maxLit, potent, unitPropagation"]}
{"id": "C04", "title": "wl: a SAT answer is right", "statement": "When `-solvenc -wl` reports SAT on a well-formed input whose clauses have no repeated literal, the input is satisfiable and the assigned atoms satisfy every input clause.", "quantifier": "every well-formed problem (any number of variables, any domain sizes, any clauses), every decision heuristic the command line offers, every restart threshold, every sequence of clock readings", "why_tests_cant": "The watched-literal invariant must survive every back-jump; violations only show on rare histories.", "anchors": ["src/Formula.cc: WatchedLiterals, watchedReduceTheory, watchedFalsifyLiteral, SwapPointer, watchedUndoTheory, WatchedUnitPropagation, lazyWatchedChooseLiteral"]}
{"id": "C05", "title": "wl: an UNSAT answer is right", "statement": "When `-solvenc -wl` reports UNSAT on a well-formed input whose clauses have no repeated literal, the input has no satisfying assignment.", "quantifier": "every well-formed problem (any number of variables, any domain sizes, any clauses), every decision heuristic the command line offers, every restart threshold, every sequence of clock readings", "why_tests_cant": "Statement about all assignments and all histories.", "anchors": ["src/Formula.cc: WatchedLiterals, SwapPointer, analyzeConflict, assignWatched, resolve"]}
{"id": "C06", "title": "wl: the search always finishes, without undefined behaviour", "statement": "On every well-formed input whose clauses have no repeated literal, `-solvenc -wl` finishes in finitely many steps with SAT, UNSAT or (only if the clock said so) TIMEOUT, without out-of-bounds access and without corrupting a watch list.", "quantifier": "every well-formed problem (any number of variables, any domain sizes, any clauses), every decision heuristic the command line offers, every restart threshold, every sequence of clock readings", "why_tests_cant": "As for C03; additionally watch lists are mutated while being traversed.", "anchors": ["src/Formula.cc: WatchedLiterals, watchedFalsifyLiteral, SwapPointer, assignWatched", "src/Variable.cc: addRecord, removeRecord"]}
{"id": "C07", "title": "ch: a SAT answer is right", "statement": "When `-solvech` reports SAT on a well-formed input, the input is satisfiable and the assigned atoms satisfy every input clause.", "quantifier": "every well-formed problem, both heuristics of -solvech, every sequence of clock readings", "why_tests_cant": "As C01; the chronological search additionally relies on state restored through nested recursive returns.", "anchors": ["src/Formula.cc: ChronoBacktrack, undoTheory"]}
{"id": "C08", "title": "ch: an UNSAT answer is right", "statement": "When `-solvech` reports UNSAT on a well-formed input, the input has no satisfying assignment.", "quantifier": "every well-formed problem, both heuristics of -solvech, every sequence of clock readings", "why_tests_cant": "Statement about all assignments.", "anchors": ["src/Formula.cc: ChronoBacktrack, reduceTheory, unitPropagation"]}
{"id": "C09", "title": "ch: the search always finishes, without undefined behaviour", "statement": "On every well-formed input `-solvech` finishes in finitely many steps with SAT, UNSAT or (only if the clock said so) TIMEOUT, with no out-of-bounds access.", "quantifier": "every well-formed problem, both heuristics of -solvech, every sequence of clock readings", "why_tests_cant": "Termination over all inputs.", "anchors": ["src/Formula.cc: ChronoBacktrack"]}
{"id": "C10", "title": "All algorithms and options agree", "statement": "On one and the same well-formed input without repeated literals in a clause, any two runs of the solver (-solvech, -solvenc, -solvenc -wl, any heuristic, any restart threshold) that do not time out print the same verdict.", "quantifier": "every problem, every pair of option settings", "why_tests_cant": "The pairwise product of options and inputs is infinite.", "anchors": ["src/Formula.cc: ChronoBacktrack, NonChronoBacktrack, WatchedLiterals", "src/SolveFinite.cc: SolveFinite"]}
{"id": "C11", "title": "The printed model is a complete model", "statement": "After a SAT answer obtained with a non-lazy heuristic, the lines `v=d` printed as \"The model\" name every declared variable exactly once, with a value of its domain, and that assignment satisfies all clauses.", "quantifier": "every well-formed problem, all algorithms with the bookkeeping / VSIDS / VSIDS-positive heuristics", "why_tests_cant": "A property of the decision stack after an arbitrary search history.", "anchors": ["src/Formula.cc: PrintModel, DECSTACK"]}
{"id": "C12", "title": "With -lazy the printed model determines a model", "statement": "After a SAT answer obtained with -lazy, completing the printed lines arbitrarily gives a satisfying assignment. (The code violates this: negative decisions are not printed.)", "quantifier": "every well-formed problem solved with -lazy", "why_tests_cant": "Universal claim; refuted by a concrete run.", "anchors": ["src/Formula.cc: PrintModel, lazyChooseLiteral, lazyWatchedChooseLiteral"]}
{"id": "C13", "title": "The self-check is exact", "statement": "`verifyModel` returns true exactly when every clause of the current theory contains a literal made true by the assigned atoms, and on a well-formed input every SAT answer is followed by `model is CORRECT`.", "quantifier": "every solver state; every run", "why_tests_cant": "The check itself is only as good as its definition on all states.", "anchors": ["src/Formula.cc: verifyModel", "src/SolveFinite.cc: SolveFinite"]}
{"id": "C14", "title": "TIMEOUT only when the limit passed", "statement": "The solver answers TIMEOUT only if one of its clock checks saw the elapsed time exceed the limit, and with a clock that never exceeds the limit it answers SAT or UNSAT.", "quantifier": "every problem, option setting and sequence of clock readings", "why_tests_cant": "Quantifies over schedules of clock readings.", "anchors": ["src/Formula.cc: NonChronoBacktrack, WatchedLiterals, ChronoBacktrack (TIME_E - TIME_S > TIMELIMIT)"]}
{"id": "C15", "title": "Learned clauses are consequences of the input", "statement": "Every clause the solver ever adds to its theory is true in every satisfying assignment of the input problem; original clauses are never dropped or altered.", "quantifier": "every problem, every reachable state of the learning solvers", "why_tests_cant": "Over all reachable states.", "anchors": ["src/Formula.cc: analyzeConflict, learnClause, resolve"]}
{"id": "C16", "title": "Extended resolution is sound", "statement": "For any two clauses C, R and any literal L, every assignment that satisfies both C and R satisfies the clause the resolution function returns, and the result contains only literals of C and R, each literal that comes from R at most once.", "quantifier": "every pair of clauses, every literal, every assignment", "why_tests_cant": "Infinite domain of clauses.", "anchors": ["src/Formula.cc: resolve, falsifies, hasAtom"]}
{"id": "C17", "title": "Learned clauses drive the search forward", "statement": "Each conflict above level 0 yields a clause that is falsified by the current assignment, has exactly one literal falsified at the conflict level, is not a superset of any clause already present, and becomes unit after the back-jump.", "quantifier": "every reachable conflict state of the learning solvers", "why_tests_cant": "Over all reachable states; this is what rules out livelock.", "anchors": ["src/Formula.cc: analyzeConflict, potent, backtrackLevel"]}
{"id": "C18", "title": "Back-jumping restores the search state exactly", "statement": "After undoing to level l, exactly the atoms assigned at levels <= l keep their value, level, reason and stack position, all others are unassigned; each clause is marked satisfied iff it contains a true literal and otherwise its counter equals its number of unassigned literals.", "quantifier": "every reachable state and every target level the solver uses", "why_tests_cant": "Depends on the whole history of assignments.", "anchors": ["src/Formula.cc: undoTheory, addLiteral, unsatisfyClauses, watchedUndoTheory"]}
{"id": "C19", "title": "The bookkeeping heuristic does what it says", "statement": "With the default heuristic every decision is an equality `v=d` of an unassigned variable that maximises (number of occurrences of v=d) - (number of occurrences of v!=d) over the clauses not satisfied at that moment, ties broken by lowest variable then lowest value.", "quantifier": "every reachable decision point of -solvech / -solvenc with the default heuristic", "why_tests_cant": "Incrementally maintained counts must be exact after any history of reductions and undos, including learned clauses.", "anchors": ["src/Formula.cc: chooseLiteral, satisfyClauses, unsatisfyClauses, addLiteral, learnClause"]}
{"id": "C20", "title": "VSIDS picks an unassigned literal of maximal score", "statement": "With -vsids / -vsids_pos each decision is an unassigned literal whose score is maximal among the candidates (IEEE double comparison), and a literal is found whenever some declared variable has no value.", "quantifier": "every reachable decision point", "why_tests_cant": "Scores are IEEE doubles halved and incremented unboundedly often.", "anchors": ["src/Formula.cc: chooseLiteralVSIDS, chooseLiteralVSIDS_allPos, learnClause"]}
{"id": "C21", "title": "Restart bookkeeping", "statement": "With threshold k>0 the reported number of restarts is floor(backtracks / k); with threshold 0 (or negative) no restart happens.", "quantifier": "every problem and every k", "why_tests_cant": "Over all runs.", "anchors": ["src/Formula.cc: NonChronoBacktrack, WatchedLiterals (restartCount)"]}
{"id": "C22", "title": "Reported statistics are consistent", "statement": "In learning mode the reported number of clauses is the number of clause lines plus the number of backtracks; with -solvech it is the number of clause lines; the reported number of variables is the number of domain lines.", "quantifier": "every run", "why_tests_cant": "Over all runs.", "anchors": ["src/Formula.cc: PrintInfo, learnClause, BuildFormula"]}
{"id": "C23", "title": "Documented input files are read back exactly", "statement": "For every problem written in the documented extended-DIMACS layout (comment lines, problem line, domain lines in order, clause lines ending in 0) whose lines are shorter than 3000 characters, the theory the solver builds has exactly the declared domains and exactly the written clauses, in order, in every mode.", "quantifier": "every problem, every placement of comment lines", "why_tests_cant": "Round-trip over an infinite input language.", "anchors": ["src/Formula.cc: BuildFormula"]}
{"id": "C24", "title": "Over-long lines", "statement": "Every clause line of the file becomes a clause of the theory. (The code violates this: a line of 3000 or more characters silently ends the reading, so a satisfiable answer can be given for an unsatisfiable file.)", "quantifier": "every input file", "why_tests_cant": "Universal claim over files; refuted by construction.", "anchors": ["src/Formula.cc: BuildFormula (infile.getline(line_buffer, 3000))"]}
{"id": "C25", "title": "Blank lines are harmless", "statement": "Adding a blank line to an input file does not change the answer. (The code violates this: a blank line becomes an empty clause, which the counter-based search ignores until the self-check prints INCORRECT, and which -wl reads out of bounds.)", "quantifier": "every input file", "why_tests_cant": "Universal claim over files; refuted.", "anchors": ["src/Formula.cc: BuildFormula, verifyModel"]}
{"id": "C26", "title": "One-value domains", "statement": "The verdict is right for problems that declare a variable with a single value. (The code violates this: v!=0 on such a variable is accepted, e.g. the 2-pigeon/1-hole instance is reported SAT and the model `CORRECT`.)", "quantifier": "every problem with one-value domains", "why_tests_cant": "Universal claim; refuted.", "anchors": ["src/Formula.cc: reduceTheory, checkEntail, verifyModel"]}
{"id": "C27", "title": "Repeated literals", "statement": "A clause that repeats a literal behaves like the clause without the repetition. (Violated: -wl reports UNSAT on satisfiable inputs; conflict analysis of the counter-based solver can leave the conflict level.)", "quantifier": "every problem", "why_tests_cant": "Universal claim; refuted.", "anchors": ["src/Formula.cc: BuildFormula (WATCHED), SwapPointer, potent, maxLit"]}
{"id": "C28", "title": "Command line decoding", "statement": "Options may come in any order; -wl never leaves the solver with a heuristic the watched-literal search does not implement, options not recognised are skipped, and defaults hold for absent options. (The documented spelling `-restarts` is not recognised.)", "quantifier": "every argument vector", "why_tests_cant": "Infinite set of argument vectors.", "anchors": ["src/Global.cc: ParseCommandLine", "src/Main.cc: main"]}
{"id": "C29", "title": "Linear encoding preserves satisfiability", "statement": "The Boolean CNF written by -linenc is satisfiable iff the finite-domain input is, for inputs whose two-valued variables occur only in equalities; solutions translate in both directions. (For `v!=d` on a two-valued variable the sign is dropped, refuting the unrestricted claim.)", "quantifier": "every well-formed problem", "why_tests_cant": "Equisatisfiability over all inputs.", "anchors": ["src/LinearEncode.cc: LinearEncode"]}
{"id": "C30", "title": "Linear encoding header", "statement": "The `p cnf V C` header written by -linenc states at least the number of variables used and exactly the number of clauses written. (Exact only if no variable is declared with two values.)", "quantifier": "every well-formed problem", "why_tests_cant": "Arithmetic identity over all domain vectors.", "anchors": ["src/LinearEncode.cc: LinearEncode"]}
{"id": "C31", "title": "Quadratic encoding preserves satisfiability", "statement": "The propositional clauses over atoms `v=d` written by -quadenc are satisfiable iff the input is, and their solutions are exactly the input's solutions.", "quantifier": "every well-formed problem", "why_tests_cant": "Equisatisfiability over all inputs.", "anchors": ["src/QuadraticEncode.cc: QuadraticEncode"]}
{"id": "C32", "title": "Quadratic encoding header", "statement": "The header written by -quadenc states the number of atoms and of clauses written. (The factorials overflow int as soon as a domain has 13 or more values.)", "quantifier": "every well-formed problem", "why_tests_cant": "Arithmetic over all domain sizes.", "anchors": ["src/QuadraticEncode.cc: Fact, QuadraticEncode"]}
{"id": "C33", "title": "Boolean to finite conversion preserves satisfiability", "statement": "For a DIMACS file whose clauses use exactly the variables 1..n and are each closed by 0 on one line, the finite-domain file written by -b2f, read back by the solver, is satisfiable iff the Boolean file is; models correspond (true = value 1, false = value 0).", "quantifier": "every Boolean CNF", "why_tests_cant": "Equisatisfiability over all inputs.", "anchors": ["src/Boolean2Finite.cc: Boolean2Finite"]}
{"id": "C34", "title": "Boolean to finite conversion declares every variable", "statement": "Every variable used in the clauses written by -b2f has a domain line. (Violated when no 0 terminator occurs; and a gap in the numbering misaligns the domain table of the reader.)", "quantifier": "every Boolean CNF file", "why_tests_cant": "Universal claim; refuted.", "anchors": ["src/Boolean2Finite.cc: Boolean2Finite"]}
{"id": "C35", "title": "Generated satisfiable finite benchmarks are satisfiable", "statement": "With -genben -bool 1 -sat 1 and clause size >= 1, whatever the random generator returns, the written problem is satisfied by the hidden solution.", "quantifier": "every sequence of random numbers, every parameter setting for which generation finishes", "why_tests_cant": "All random seeds.", "anchors": ["src/GenBenFunc.cc: GenBenFin"]}
{"id": "C36", "title": "Generated finite clauses use distinct variables", "statement": "Every clause written by -genben -bool 1 has exactly -clausesize literals over pairwise distinct declared variables with values inside their domains.", "quantifier": "every sequence of random numbers, all parameters", "why_tests_cant": "All random seeds.", "anchors": ["src/GenBenFunc.cc: GenBenFin"]}
{"id": "C37", "title": "Generated satisfiable Boolean benchmarks are satisfiable", "statement": "With -genben -bool 0 -sat 1 the written CNF is satisfiable. (The code violates this: the first literal is negated at random.)", "quantifier": "every sequence of random numbers", "why_tests_cant": "All random seeds; refuted.", "anchors": ["src/GenBenFunc.cc: GenBenBool"]}
{"id": "C38", "title": "Generated files can be solved", "statement": "A file written by -genben -bool 1 is read back by the solver as exactly the generated problem.", "quantifier": "every sequence of random numbers, all parameters", "why_tests_cant": "Round trip over all seeds.", "anchors": ["src/GenBenFunc.cc: GenBenFin", "src/Formula.cc: BuildFormula"]}
{"id": "C39", "title": "learnClause and the missing return", "statement": "No run executes undefined behaviour. (Strictly false for the C++ text: learnClause has a non-void return type and no return statement, so each run that learns a clause flows off its end.)", "quantifier": "every run", "why_tests_cant": "Language-level claim; which runs are affected is a reachability question.", "anchors": ["src/Formula.cc: learnClause"]}
{"id": "C40", "title": "End to end", "statement": "For every well-formed problem without repeated literals, `Solver <mode> <options> -file f`, where f holds the problem in the documented layout, prints SAT iff the problem is satisfiable and UNSAT iff it is not, unless the clock ran out.", "quantifier": "every problem, mode, option list, clock", "why_tests_cant": "Composition of parsing, option decoding and search over all inputs.", "anchors": ["src/Main.cc: main", "src/Global.cc: ParseCommandLine", "src/SolveFinite.cc: SolveFinite", "src/Formula.cc: BuildFormula"]}
{"id": "C41", "title": "The statistics count what happened", "statement": "DECISIONS, UNITS and ENTAILS count the literals put on the decision stack by a decision, by propagation from a clause and as last remaining value: in the learning searches each count is at least the number of such literals on the stack at the end, and equal if there was no backtrack; each iteration adds to the counts exactly what it adds to the stack, and handling a conflict adds one to BACKTRACKS and changes no other count. In every search without a backtrack the three counts add up to the height of the stack. With -solvech decisions minus backtracks is the level at the end, and a refutation has exactly one backtrack more than decisions.", "quantifier": "every run, every iteration", "why_tests_cant": "Counters that drift apart from the stack only show in a statistic nobody recomputes.", "anchors": ["src/Formula.cc: PrintInfo, unitPropagation, WatchedUnitPropagation, reduceTheory, watchedReduceTheory, NonChronoBacktrack, WatchedLiterals, ChronoBacktrack"]}
{"id": "C42", "title": "The clock is obeyed", "statement": "The answer is TIMEOUT exactly if the last clock check of the run was late, and every earlier check was in time: the search stops at the first late check. The learning searches check at least once per decision and at most decisions + backtracks + 2 times; -solvech checks exactly twice per decision and backtrack, plus twice for a final SAT and once or twice for a final TIMEOUT.", "quantifier": "every problem, option setting and sequence of clock readings", "why_tests_cant": "Quantifies over schedules of clock readings.", "anchors": ["src/Formula.cc: NonChronoBacktrack, WatchedLiterals, ChronoBacktrack (TIME_E - TIME_S > TIMELIMIT)"]}
{"id": "C43", "title": "The VSIDS scores are a function of the clauses", "statement": "In the learning searches the score of a literal is, in binary64 arithmetic, the number of its occurrences in the input, and then for each learned clause in order: plus the number of its occurrences in that clause, divided by two. With -vsids_pos an equality is credited for its own occurrences and for those of v!=e with another value e. This holds at every loop head and at every decision.", "quantifier": "every reachable state, every literal", "why_tests_cant": "Scores are internal and depend on the whole history; a missed or doubled update only changes which decisions are taken.", "anchors": ["src/Formula.cc: BuildFormula, learnClause, chooseLiteralVSIDS, chooseLiteralVSIDS_allPos"]}
{"id": "C44", "title": "The lazy heuristics", "statement": "-lazy decides the first open literal of the first clause without a true literal, and answers that nothing is left exactly if every clause has a true literal. With -wl it decides the first watched literal of the first clause in which that is open, all clauses before having a true literal.", "quantifier": "every decision of every run", "why_tests_cant": "Which literal is decided is not visible in the output.", "anchors": ["src/Formula.cc: lazyChooseLiteral, lazyWatchedChooseLiteral"]}
{"id": "C45", "title": "The decision stack explains the assignment", "statement": "At every loop head and decision: DECSTACK holds distinct true literals in the order of their levels, each knowing its position, and they determine exactly which atoms are assigned, to what and at which level; VAL is the assigned value or -1, and without a conflict a value excludes all others and a variable without value has two open values. In the learning searches every entry has a reason: a decision opens its level and every level up to the current one has exactly one; a propagated literal is in its clause, all of whose other literals are ruled out by entries below; an entailed literal has all other values ruled out by entries below.", "quantifier": "every reachable state of every run", "why_tests_cant": "Global invariant of the internal state, over all histories of decisions, propagations, jumps and restarts.", "anchors": ["src/Formula.cc: reduceTheory, watchedReduceTheory, unitPropagation, WatchedUnitPropagation, undoTheory, watchedUndoTheory, backtrackLevel", "src/Variable.h"]}
{"id": "C46", "title": "Counters and watches are exact, propagation is complete", "statement": "At every loop head the number of unassigned literals, the level at which a clause became satisfied and the occurrence lists are exact; with -wl and without a conflict the watch lists are exact and a false watched literal has a true partner or the clause waits for propagation. When a decision is taken every clause without a true literal has at least two open literals (counted with repetitions).", "quantifier": "every reachable state of every run", "why_tests_cant": "Internal state; a wrong counter may stay invisible until a much later conflict.", "anchors": ["src/Formula.cc: satisfyClauses, removeLiteral, unsatisfyClauses, addLiteral, undoTheory, watchedFalsifyLiteral, SwapPointer, unitPropagation, WatchedUnitPropagation"]}
{"id": "C47", "title": "What a solver run prints", "statement": "Standard output of `Solver -solvech|-solvenc ... -file f` on a documented well-formed problem is exactly: the title, the file name, two times around the log, the third time, the answer word after a BEL character, the seven statistics lines, and for SAT the model followed by `Verifying model ... model is CORRECT`. The word and the model are right for the problem; the number of clauses is that of the input plus one per backtrack, the number of restarts is backtracks divided by the restart interval; the exit status is 0 and no file changes. A missing file gives the error text and status 1; without -file a null pointer is used as name.", "quantifier": "every argument list selecting a solver, every file, problem, clock and logged text", "why_tests_cant": "Exact text for all inputs; composition of option decoding, reading, search and printing.", "anchors": ["src/Main.cc: main", "src/SolveFinite.cc: SolveFinite", "src/Formula.cc: PrintInfo, PrintModel, verifyModel, BuildFormula"]}
{"id": "C48", "title": "What the converters do to the files", "statement": "-linenc, -quadenc and -b2f with any options read the file named last by -file and write only the file named last by -model, whose content is the encoding resp. conversion of the input; they print only the title and exit with 0. If the input cannot be opened, or the output cannot be written, the documented error text is printed, the status is 1 and no file changes. Without one of the names a null pointer is used as name.", "quantifier": "every option list, every content of the files", "why_tests_cant": "Every combination of options and file states.", "anchors": ["src/LinearEncode.cc", "src/QuadraticEncode.cc", "src/Boolean2Finite.cc", "src/Global.cc: ParseCommandLine", "src/Main.cc"]}
{"id": "C49", "title": "Conversion in place destroys the input", "statement": "If -file and -model name the same file then -linenc and -quadenc leave it empty and exit with 0, and -b2f is undefined behaviour; the file is not converted.", "quantifier": "every option list, every content", "why_tests_cant": "A negative result for all inputs.", "anchors": ["src/LinearEncode.cc", "src/QuadraticEncode.cc", "src/Boolean2Finite.cc"]}
{"id": "C50", "title": "The options of -genben", "statement": "For every list of options of -genben, with unknown words anywhere, the last occurrence of each option counts; the defaults are -1 variables, -1 clauses, clause size 3, -sat 1, domain 10, -drand 0, -bool 0 and no file; a number other than 0 after -bool selects the finite-domain generator.", "quantifier": "every list of options", "why_tests_cant": "All lists of options in all orders.", "anchors": ["src/Global.cc: ParseCommandLine", "src/Main.cc: main"]}
{"id": "C51", "title": "The menu", "statement": "Without arguments, with -help and with an unknown first argument the menu is shown. For every input the pages of the numbers entered are shown in order until 0 is entered; then the program exits with status 1; no file changes. An input without a number exits at once. If the input ends after a choice the program prints for ever.", "quantifier": "every input text", "why_tests_cant": "Non-termination, and all sequences of choices.", "anchors": ["src/Global.cc: PrintHelp"]}
{"id": "C52", "title": "Which files a run can change", "statement": "A terminating run changes at most one file: the argument of a -model option of -b2f, -linenc or -quadenc, or the argument of a -file option of -genben, and only if it exits with 0. Solver runs and the menu change no file.", "quantifier": "every argument list, every machine state", "why_tests_cant": "Frame property over all argument lists.", "anchors": ["src/Main.cc: main", "src/Global.cc: ParseCommandLine", "src/GenBenFunc.cc", "src/LinearEncode.cc", "src/QuadraticEncode.cc", "src/Boolean2Finite.cc"]}
{"id": "C53", "title": "Programs run one after the other", "statement": "Whatever the solver and its options: after -linenc and -b2f the solver's answer is right for the problem that was encoded; after -b2f it is right for the Boolean problem; after -genben -bool 1 -sat 1 it is SAT unless the clock ran out.", "quantifier": "every problem, every option list, every list of random numbers", "why_tests_cant": "Composition of three programs over all inputs.", "anchors": ["src/LinearEncode.cc", "src/Boolean2Finite.cc", "src/GenBenFunc.cc", "src/SolveFinite.cc"]}
{"id": "C54", "title": "The pigeonhole generator", "statement": "pigeon_script.cc writes for n pigeons a file in the documented format with the right number of clauses, whose models are the placements of n pigeons in n-1 holes with no two in the same hole; there is none. On such a file (n >= 3, all numbers in range) every run of the solver prints UNSAT unless the clock ran out. More generally, on a file whose problem describes a puzzle the solver prints a solution, or UNSAT if there is none.", "quantifier": "every n, every option list, every clock", "why_tests_cant": "The pigeonhole principle for all n; tests stop at small n because the search is exponential.", "anchors": ["benchmarks/Pigeonhole/pigeon_script.cc", "src/SolveFinite.cc: SolveFinite"]}
{"id": "C55", "title": "The Python pigeonhole generator", "statement": "The files written by pigeonhole_script.py declare no domains: on each of them, and for any number of pigeons from two on, every solver run is undefined behaviour at the first clause.", "quantifier": "every n, mode, configuration, clock", "why_tests_cant": "Undefined behaviour may go unnoticed in a run.", "anchors": ["benchmarks/Pigeonhole/pigeonhole_script.py", "src/Formula.cc: BuildFormula"]}
{"id": "C56", "title": "The queens generator", "statement": "The solver accepts the file Nqueens.cc writes for n queens (2 <= n <= 800), and the models of its problem are the placements of one queen per column with no two attacking each other; the file does not follow the documented format, because the problem line comes last.", "quantifier": "every n", "why_tests_cant": "All n and all placements.", "anchors": ["benchmarks/Nqueens/Nqueens.cc", "src/Formula.cc: BuildFormula"]}
{"id": "C57", "title": "The amazons generator", "statement": "The solver accepts the output of Namazons-generator.hs for n (2 <= n <= 600), and the models of its problem are the placements of n amazons, one per row, with no two attacking each other as queens or as knights.", "quantifier": "every n", "why_tests_cant": "All n and all placements.", "anchors": ["benchmarks/Namazons/Namazons-generator.hs"]}
{"id": "C58", "title": "The Boolean queens generator", "statement": "The clauses nqueens_sat.cc writes are satisfied exactly by the boards with a queen in every row and column and no two attacking each other. The file is a DIMACS file followed by an empty line; -b2f converts it to the finite problem followed by an empty line, on which -wl is undefined behaviour and a model found without -wl is reported as not verified.", "quantifier": "every n (up to 200 for the conversion), every configuration", "why_tests_cant": "All boards; the effect of the empty line in every run.", "anchors": ["benchmarks/Nqueens/nqueens_sat.cc", "src/Boolean2Finite.cc", "src/Formula.cc: BuildFormula, verifyModel"]}
{"id": "C59", "title": "The graph colouring converter", "statement": "For every graph file in the DIMACS format and every number N of colours coloring_script.py writes a file in the documented format whose models are the proper colourings with N colours; the solver accepts it, even if the number of edges in the problem line is wrong, if no vertex is adjacent to itself. With -s a graph file with an error still leaves a file of clauses behind.", "quantifier": "every graph file, every N", "why_tests_cant": "All graphs and colourings.", "anchors": ["benchmarks/Graph_Coloring/coloring_script.py"]}
{"id": "C60", "title": "The tables of results", "statement": "parse_results.cc turns the output of a solver run into the seven statistics, each followed by a NUL and a blank; after a model a line feed, a NUL and a blank follow, and nothing after UNSAT or TIMEOUT, so that the rows of such runs are on one line. Output.cc prints the same without line feeds, and one at the end.", "quantifier": "every output of the solver, in any sequence of runs", "why_tests_cant": "All sequences of runs.", "anchors": ["benchmarks/parse_results.cc", "benchmarks/Nqueens/Output.cc"]}
{"id": "C61", "title": "Which clause is learned", "statement": "The clause added after a conflict is the first asserting clause obtained from the conflicting clause by resolving, again and again, on the literal assigned last with the clause because of which it was assigned (first unique implication point); ties between literals assigned by one entry go to the first in the clause, and with -wl in the first step to the first watched literal. This determines the learned clause, including the order of its literals.", "quantifier": "every problem without repeated literals, every reachable conflict above level 0, both learning searches", "why_tests_cant": "Every reachable conflict; a different implied and asserting clause would not change any answer.", "anchors": ["src/Formula.cc: analyzeConflict, resolve, potent, maxLit, assignWatched, learnClause"]}
{"id": "C62", "title": "Domains of any size", "statement": "For problems whose variables have any number of values (also one or none), the solver terminates without undefined behaviour, its verdict is right for the same clauses over domains of at least two values, and the printed model is a model of that problem without the lines of the values outside the declared domains.", "quantifier": "every problem with literals inside the domains and without empty clauses, every configuration", "why_tests_cant": "All problems with such domains.", "anchors": ["src/Formula.cc: reduceTheory, checkEntail, verifyModel, printModel"]}
{"id": "C63", "title": "The watch lists in memory", "statement": "In a run with -wl the doubly linked watch lists are always well formed: no record is used after it was deleted, none is deleted twice, and whenever the run stops each literal's list has exactly one record for each clause watched at that literal and no other record exists. The printed report is the one of the model in which the watch lists are plain lists.", "quantifier": "every problem without repeated literals, every heuristic of -wl, every restart setting, every clock", "why_tests_cant": "Every sequence of insertions and deletions a run can make; a stale pointer need not crash a test.", "anchors": ["src/Variable.cc: addRecord, removeRecord", "src/Formula.cc: SwapPointer, watchedFalsifyLiteral, learnClause"]}
{"id": "C64", "title": "Deleting a variable", "statement": "Deleting a Variable deletes each of its watch list records once.", "quantifier": "every heap with well formed lists", "why_tests_cant": "The destructor is never called by the program.", "anchors": ["src/Variable.cc: ~Variable"]}
{"id": "C65", "title": "The clause objects in memory", "statement": "In a learning search no clause object is used after it was deleted and none is deleted twice. Whenever the run stops, the clause list points to one object per clause and to none twice, and the only other objects that exist are those allocated for domain lines (one each, never deleted): every resolvent that was not learnt and every reason made up on the way has been deleted. Result and statistics are those of the model in which clauses are values.", "quantifier": "every problem without repeated literals, both learning searches, every heuristic, every restart setting, every clock", "why_tests_cant": "Every sequence of conflicts a run can have; using a deleted object need not crash a test.", "anchors": ["src/Formula.cc: BuildFormula, analyzeConflict, resolve, learnClause"]}
{"id": "C66", "title": "The range of the counters", "statement": "Decisions, propagations and entailments together are at most (conflicts + 1) times the number of values of all variables; restarts are at most as many as conflicts, and conflicts and decisions at most as many as checks of the time. Level, length of the decision stack and the positions on it are at most the number of values. So no counter of the search overflows an int unless the checks of the time times the values exceed one.", "quantifier": "every problem without repeated literals (any problem for -solvech), every configuration, restart setting and clock, at the end and at each iteration of the learning searches", "why_tests_cant": "Runs of any length.", "anchors": ["src/Formula.cc: ChronoBacktrack, NonChronoBacktrack, WatchedLiterals, reduceTheory, watchedReduceTheory"]}
{"id": "C67", "title": "Verdicts of the second solver", "statement": "The solver in bitvec/, whose literals are sets of values, terminates without undefined behaviour on every well-formed problem; if it prints SAT it prints a non-empty set of values for every variable, every choice of values from these sets is a model and the check of the sets succeeds; if it prints UNSAT there is no model; it prints TIMEOUT only if a check of the clock failed.", "quantifier": "every well-formed problem, with and without scores, every restart setting, every clock", "why_tests_cant": "All problems and all runs, in particular that every choice of values from the printed sets is a model.", "anchors": ["bitvec/Formula.cc: WatchedLiterals, unitPropagation, analyzeConflict, resolve, learnClause, undoTheory", "bitvec/SolveFinite.cc"]}
{"id": "C68", "title": "The check of the second solver", "statement": "If the second solver reports that the printed sets are correct, every choice of values from them is a model of the problem, however the search came to them.", "quantifier": "every well-formed problem with domains of at most 64 values, every setting, also runs with restarts or several clauses about one variable", "why_tests_cant": "All problems; the check is the only safeguard against the errors of the restarts.", "anchors": ["bitvec/Formula.cc: verifyModel, printModel"]}
{"id": "C69", "title": "What the second solver learns and counts", "statement": "Every clause the second solver stores follows from the problem, one clause is stored for each backtrack, and the printed numbers of variables and clauses are the declared variables and the stored clauses.", "quantifier": "every well-formed problem with domains of at most 64 values and at most one clause about a single variable, with and without scores, no restarts, every clock", "why_tests_cant": "All learned clauses of all runs.", "anchors": ["bitvec/Formula.cc: analyzeConflict, resolve, learnClause"]}
{"id": "C70", "title": "The program of the second solver", "statement": "Run with -solvenc and a file that is accepted for a problem, the program of bitvec/ ends with status 0, changes no file and prints: the banner, file name and times, the right word SAT, UNSAT or TIMEOUT, the statistics (entailments and restarts 0, as many clauses as declared plus one for each backtrack), and after SAT for each of the variables 0, ..., n a line with 64 digits, the set of its values, all inside its domain, such that every choice of values is a model, then that the model is correct. If it prints that the model is correct then this is so whatever the options. Without the file: the error message and status 1.", "quantifier": "every sequence of options, every file accepted for a well-formed problem, every clock", "why_tests_cant": "All texts, options and runs.", "anchors": ["bitvec/Main.cc", "bitvec/SolveFinite.cc", "bitvec/Global.cc: ParseCommandLine", "bitvec/Formula.cc: BuildFormula, PrintInfo, PrintModel"]}
{"id": "C71", "title": "Options and menu of the second solver", "statement": "Of each option of the second solver the last occurrence counts, and words it does not know, among them -lazy and -vsids_pos, are ignored. If the first argument is not -solvenc the menu is shown: the page of each number entered in order, until 0 or something that is not a number is entered; the status is then 1 and no file is changed.", "quantifier": "every sequence of options, every input", "why_tests_cant": "All inputs and sequences of options.", "anchors": ["bitvec/Global.cc: PrintHelp, ParseCommandLine", "bitvec/Main.cc"]}
{"id": "C72", "title": "The two programs agree", "statement": "On a file accepted for a problem, the program of src/ (any search and heuristic) and the program of bitvec/ print the same word, SAT or UNSAT, unless one prints TIMEOUT, and then one of its checks of the clock failed.", "quantifier": "every file accepted for a well-formed problem with domains of at most 64 values and at most one clause about a single variable, every configuration of the first program, with and without scores for the second, no restarts for the second", "why_tests_cant": "All problems; differential tests only sample them.", "anchors": ["src/SolveFinite.cc", "bitvec/SolveFinite.cc"]}
{"id": "C73", "title": "Scores of the second solver", "statement": "At each iteration of the second solver the score of a value is the one defined by its clauses alone: one for each clause of the input that allows the value, and then, for each learned clause in order, one more if it allows the value, followed by halving (in double arithmetic). The clauses stored are those of the input, one set per variable with the values of the domain the clause allows, followed by the learned ones.", "quantifier": "every well-formed problem with domains of at most 64 values, every setting, also with restarts, every clock", "why_tests_cant": "All states of all runs; the scores are not printed.", "anchors": ["bitvec/Formula.cc: BuildFormula, learnClause", "bitvec/Variable.h"]}
{"id": "C74", "title": "Choices of the second solver", "statement": "With scores the second solver decides for a single value of maximal score among the values of the variables with more than one value left, the first such value in the order of variables and values; it stops choosing only if each variable has at most one value left. Without scores it decides for the first watched literal of the first clause for which this literal is open (neither true nor false); all clauses before have a true literal, and it stops choosing only if all clauses have one.", "quantifier": "every decision of every run on a well-formed problem with domains of at most 64 values; without scores: at most one clause about a single variable, no restarts", "why_tests_cant": "All states of all runs.", "anchors": ["bitvec/Formula.cc: chooseLiteralVSIDS, lazyWatchedChooseLiteral"]}
{"id": "C75", "title": "Conflicts of the second solver", "statement": "At a conflict above level 0 all literals of the conflict clause are false. The learned clause is obtained by resolving again and again on the literal that became false last with the clause from which the change was propagated (union of the sets; on the resolved variable the intersection), until exactly one literal became false at the current level; this determines the clause. The solver then goes back to the highest level at which another literal of the learned clause became false (level 0 if there is none), takes back exactly the changes above that level, and there the learned clause has one open literal, the others are false, and it alone waits to be propagated.", "quantifier": "every conflict of every run on a well-formed problem with domains of at most 64 values and at most one clause about a single variable, no restarts, with and without scores, every clock", "why_tests_cant": "All conflicts of all runs.", "anchors": ["bitvec/Formula.cc: analyzeConflict, resolve, potent, assignWatched, learnClause, watchedUndoTheory, watchedUpdateVar"]}
{"id": "C76", "title": "Large domains in the second solver", "statement": "A clause about a variable declared with more than 64 values makes the second solver end by an exception of bitset while it reads the file, whatever the options; all other well-formed problems are read without errors. A run that ends prints one error message for each domain with more than 64 values, before everything else but the banner.", "quantifier": "every well-formed problem and every accepted file, every setting", "why_tests_cant": "All problems with large domains, in particular those where only some clauses are about them.", "anchors": ["bitvec/Formula.cc: BuildFormula", "bitvec/Variable.cc: Variable"]}
{"id": "C77", "title": "Runs of the second solver that end are right", "statement": "If a run of the second solver ends and the number of restarts it shows is 0, then its answer is right: after UNSAT the problem has no model, after SAT every choice from the sets shown is a model, TIMEOUT only after a check of the clock failed; the number of clauses is the number of clauses of the problem plus the number of backtracks, and all clauses stored follow from the problem. Without restarts, every run either ends so or reads VARLIST[-1]; the second is possible only if several clauses are about a single variable.", "quantifier": "every well-formed problem with domains of at most 64 values, also with several clauses about a single variable, every setting, clock and number of conflicts between restarts; for the second part: leaving learnClause without a result is harmless", "why_tests_cant": "All problems and runs; the runs with undefined behaviour look like any other in a test.", "anchors": ["bitvec/Formula.cc", "bitvec/Main.cc"]}
{"id": "C78", "title": "Clauses and counters of the second solver with restarts", "statement": "At the start of each iteration of the second solver every stored clause follows from the problem, the number of stored clauses is the number of clauses of the problem plus the number of conflicts treated, and the search has been restarted exactly after every r-th conflict (never for r <= 0). So the lines Variables, Clauses and Restarts of the program are determined by the file, the options and the line Backtracks.", "quantifier": "every well-formed problem with domains of at most 64 values, every setting, clock and argument of -restart, also with several clauses about a single variable", "why_tests_cant": "All states of all runs; a wrong learned clause rarely changes an answer.", "anchors": ["bitvec/Formula.cc: WatchedLiterals, analyzeConflict, resolve, learnClause", "bitvec/SolveFinite.cc"]}
{"id": "C79", "title": "Memory of the second solver", "statement": "A run of the second solver never uses a watch record or a clause after it was deleted, deletes none twice, and never follows a pointer to nothing. When it ends, the records are exactly those of the watch lists, which are well-formed doubly linked lists; every clause object other than the empty ones created for the domain lines (one per variable, never deleted) is one of the stored clauses, and each stored clause is an object of its own. The destructor of a variable deletes the records of its list and no others.", "quantifier": "every problem, setting and clock, also with restarts as long as no clause is stored twice; without restarts no clause ever is (well-formed problems with domains of at most 64 values)", "why_tests_cant": "A use after delete usually goes unnoticed; all sequences of additions and deletions.", "anchors": ["bitvec/Variable.cc: addRecord, removeRecord, ~Variable", "bitvec/Formula.cc: BuildFormula, SwapPointer, watchedUpdateVar, analyzeConflict, learnClause"]}
{"id": "C80", "title": "Recursive search of the first version", "statement": "With the recursive search (chronological backtracking) of the first version every run ends, with one and the same report whatever the uninitialised pointer holds, or by deleting a wrong pointer. After SAT the check of the model is printed; if it succeeds the problem is satisfiable, and it succeeds unless \"No Branch Atom selected\" was printed, which needs a huge problem or a huge number of backtracks. There are as many backtracks as decisions after UNSAT (one if there was no decision), otherwise at most as many. UNSAT without a decision is right, TIMEOUT only after a check of the clock failed, Variables and Clauses are those of the file. UNSAT after a decision says only that no model gives the first decided variable its value (it is never reversed): UNSAT can be printed for a satisfiable problem.", "quantifier": "every well-formed problem, every clock, every content of the pointer; for SAT: (4 * backtracks + 3) * literals at most 10^9; for the meaning of UNSAT after a decision: no clause with one literal, at least one clause, at most 10^9 literals", "why_tests_cant": "All problems, including all those on which the wrong UNSAT does not show.", "anchors": ["original_solver/Formula.cc: ChronoBacktrack, unitPropagation, reduceTheory, undoTheory, chooseLiteral, verifyModel", "original_solver/SolveFinite.cc"]}
{"id": "C81", "title": "Search with learning of the first version", "statement": "With the learning search of the first version (which starts again from level 0 after each conflict) SAT is always right and confirmed by the check; UNSAT without a decision is right; TIMEOUT only after a check of the clock failed; \"No Branch Atom selected\" is never printed. The only undefined behaviour is reading outside the decision stack in the conflict analysis, and deleting a wrong pointer; both occur. One clause is learned for each conflict, and there are at most as many conflicts as values of the variables. Every run ends if the problem is not huge or the clock rings for good. UNSAT can be printed for a satisfiable problem.", "quantifier": "every well-formed problem, every clock, every content of the pointer; for the end of the run: (4 * values + 3) * (literals + values) at most 10^9, or a clock that rings for good", "why_tests_cant": "All problems and all runs, also those that end in undefined behaviour.", "anchors": ["original_solver/Formula.cc: NonChronoBacktrackLoop, analyzeConflict, checkUnit, reduceTheory, undoTheory, chooseLiteral, verifyModel", "original_solver/SolveFinite.cc"]}
{"id": "C82", "title": "The pointer for entailed literals of the first version", "statement": "The pointer that checkEntail deletes is not initialised. A run that ends gives the same report whatever it holds at the start, and the same as if nothing were deleted; without the deletion neither an uninitialised pointer nor a deleted object is used. With it, a problem with one clause of one literal reads the uninitialised pointer, and where the memory held NULL an object can be deleted twice.", "quantifier": "every problem, both searches, every clock and number of steps; for the absence of errors without the deletion: well-formed problems", "why_tests_cant": "What an uninitialised pointer holds differs from run to run; a second deletion may go unnoticed.", "anchors": ["original_solver/Formula.cc: checkEntail, Formula", "original_solver/Formula.h"]}
{"id": "C83", "title": "What the first version prints", "statement": "A run of the first version with -solvech or -solvenc, with -var, -clause and -file given and a file whose problem lines repeat these numbers, writes its title, the name of the file, three times, the answer and the numbers of decisions, units, backtracks, entailments, levels, variables and clauses, and ends with status 0 without changing a file. If the last line says that the model is correct then the problem is satisfiable. The other answers mean what C80 and C81 say: TIMEOUT only after a check of the clock failed, UNSAT without a decision only if there is no model. The number of clauses is that of the file, plus the number of backtracks under -solvenc. The run ends, with this output or by one of the errors of C80-C82.", "quantifier": "every list of options the program knows (with other words between them, later ones winning), every accepted file with lines below 3000 characters, every clock, every content of the pointer; for the end under -solvenc a bound on the size or a clock that rings for good", "why_tests_cant": "All command lines, files and runs.", "anchors": ["original_solver/Main.cc: main", "original_solver/Global.cc: ParseCommandLine", "original_solver/SolveFinite.cc: SolveFinite", "original_solver/Formula.cc: BuildFormula, PrintInfo"]}
{"id": "C84", "title": "What the first version refuses", "statement": "If -var, -clause or -file is missing (or -1, -1, die is given, or -1 for -clausesize) the first version says that the command line is incorrect and ends with status 1. It also ends with status 1, with a message, if the file cannot be opened or if the numbers of variables and clauses in the file differ from those given. Other negative or too large numbers end in an uncaught exception or an overflow before the file is opened. With the name mvcnf of the format, as in README.md, an uninitialised variable decides: undefined behaviour.", "quantifier": "every list of options the program knows, every machine; for the numbers: every documented file with lines below 3000 characters and numbers that fit in an int", "why_tests_cant": "All command lines and files.", "anchors": ["original_solver/Global.cc: ParseCommandLine", "original_solver/Formula.cc: Formula, BuildFormula", "README.md"]}
{"id": "C85", "title": "Converters, generators and menu of the first version", "statement": "If the first argument is neither -solvech nor -solvenc, and the program of src ends normally, the first version writes the same files and the same text after its own title and ends with the same status. The only exception is -genben without -var, -clause or -file, which is refused with status 1 and leaves the files as they were.", "quantifier": "every command line, every machine on which the program of src ends", "why_tests_cant": "All command lines, files, inputs and random numbers, for two programs.", "anchors": ["original_solver/Main.cc: main", "original_solver/Global.cc: ParseCommandLine, PrintHelp", "original_solver/GenBenFunc.cc", "original_solver/LinearEncode.cc", "original_solver/QuadraticEncode.cc", "original_solver/Boolean2Finite.cc"]}
{"id": "C86", "title": "When the answer is TIMEOUT", "statement": "A run of the solver makes a number of checks of the clock. All but the last have not seen more seconds than the option -time allows, and the answer is TIMEOUT if and only if the last one has. Before the last check at least as many were made as there are decisions, and at most two for each decision and each conflict, and one (in bitvec: at most one for each decision and each conflict, and one). In the first version the recursive search makes at least two checks for each decision, and at most two for each decision and each backtrack, and two (unless the answer is UNSAT); the learning search makes at least one for each decision and each conflict. The first version notices a limit that is exceeded at the first check before it assigns anything, whatever the search, unless there are no clauses. The default is 3600000 seconds in src and 3600 in the two others; the last option -time counts, and it may be negative.", "quantifier": "every command line with a known file, every reading of the clock (also one that is set back), every search, heuristic and restart period", "why_tests_cant": "All readings of the clock at all checks; no test controls the clock.", "anchors": ["src/Formula.cc: WatchedLiterals, NonChronoBacktrack, ChronoBacktrack", "src/Global.cc: GetTime", "bitvec/Formula.cc: WatchedLiterals", "original_solver/Formula.cc: ChronoBacktrack, NonChronoBacktrackLoop"]}
{"id": "C87", "title": "The generators of random Boolean problems", "statement": "Whatever random numbers are drawn, the text returned by dimacs of fixed_clauses.py (and random_sat.py) is a DIMACS file with the requested number of clauses, all of the requested length and over the requested variables, and every such formula can come out; with fewer than one variable an exception is raised. The text returned by dimacs_formula of constant_probability.py is a DIMACS file with the requested number of clauses, in which the variables increase, and every such formula can come out; the number returned with it is the number of variables that occur; zero clauses raise an exception. The printed text can be converted by -bool2fin and solved: the answer is that of the formula drawn.", "quantifier": "every sequence of random numbers, all numbers of variables and clauses, all runs of the solver on the converted file", "why_tests_cant": "All sequences of random numbers; tests see a few draws.", "anchors": ["tests/RandomSAT/fixed_clauses.py: sat_formula, dimacs", "tests/RandomSAT/random_sat.py: sat_formula, dimacs", "tests/RandomSAT/constant_probability.py: random_clause, random_formula, dimacs_formula", "src/Boolean2Finite.cc: Boolean2Finite"]}
{"id": "C88", "title": "Counters of the second solver", "statement": "At the end of a run of the second solver the number of decisions and the number of propagated literals together are at most the number of values of all variables for each conflict, and once more; there are at most as many restarts as conflicts, and at most as many conflicts, and as many decisions, as checks of the clock. The same holds at each iteration of the search; there, the level is at most the number of decisions, and the number of assignments in force is between 0 and the number of values. So the counters stay within an int as long as the number of checks times the number of values does.", "quantifier": "every problem that can be read (also with more than 64 values), both heuristics, every restart period, clock and number of iterations", "why_tests_cant": "All runs of any length; an overflow shows only after billions of steps.", "anchors": ["bitvec/Formula.cc: WatchedLiterals, WatchedUnitPropagation, reduceTheory, undoTheory, PrintInfo", "bitvec/Formula.h", "bitvec/Variable.cc"]}
{"id": "C89", "title": "Counters of the first version", "statement": "When the recursive search of the first version reports, its decisions, unit clauses and entailed literals together are at most the number of clauses, plus twice the number of backtracks and one times the number of values and literals of the input. When the learning search reports, they are at most the number of conflicts and one, times the number of clauses, values, literals and conflicts together. As there are at most as many conflicts as values, every counter of the learning search is an int for every input for which one product of its sizes is.", "quantifier": "every well-formed problem, every clock, every value of the pointer to the entailed literal, both searches", "why_tests_cant": "All runs of any length; an overflow shows only after billions of steps.", "anchors": ["original_solver/Formula.cc: ChronoBacktrack, NonChronoBacktrackLoop, unitPropagation, reduceTheory, undoTheory, checkUnit, PrintInfo", "original_solver/Formula.h"]}
{"id": "C90", "title": "Converting folders of graphs", "statement": "coloring_script.py gives every *.col file of a folder a result file of its own, with the converted graph, and changes no other file; the first file with an error ends it, unless -s is given, and is reported with the line. convert_folders.py does this for 3, ..., M colours, where M is the number in M.in, each in a folder of its own. If all graph files are in the DIMACS format, then each result file is accepted by the solver and its models are the proper colourings. When DONE is printed for a number of colours, every graph file has been converted for it.", "quantifier": "every folder in every order of its files, every content of the files, every M, every previous content of the result folders", "why_tests_cant": "All folders, all orders in which the system lists them and all contents.", "anchors": ["benchmarks/Graph_Coloring/coloring_script.py", "benchmarks/Graph_Coloring/convert_folders.py"]}
{"id": "C91", "title": "Series of problems", "statement": "Nqueens/Test.cc and Pigeonhole/Test.cc, started in their own folder, write the file of each problem of their series and no other problem file, run the solver on it, and append the whole output of each run to the output file, in order. Each run on queens shows a placement of queens that do not attack each other or stops after an hour, and never prints UNSAT; each run on pigeons prints UNSAT or stops after an hour. The table made of the output has one entry for each run, in order. Started in another folder, every run of the solver fails to find its file.", "quantifier": "every home folder, all previous files and output, every clock", "why_tests_cant": "The queens series takes up to 33 hours, and what a run prints depends on the clock.", "anchors": ["benchmarks/Nqueens/Test.cc", "benchmarks/Pigeonhole/Test.cc"]}
{"id": "C92", "title": "Which queens problems have solutions", "statement": "For four or more queens there is a placement, for two or three there is none. So the solver, on the file of Nqueens.cc for n queens, prints SAT with a placement or TIMEOUT if n is at least 4, and UNSAT or TIMEOUT if n is 2 or 3, with every option; and the clauses of nqueens_sat.cc for n queens are satisfiable if and only if n is 1 or at least 4.", "quantifier": "every n (2 <= n <= 800 for the run of the solver), all options, every clock", "why_tests_cant": "All sizes; a search takes too long for large n, and UNSAT for one of them would be wrong.", "anchors": ["benchmarks/Nqueens/Nqueens.cc", "benchmarks/Nqueens/nqueens_sat.cc"]}
{"id": "C93", "title": "Which amazons problems have solutions", "statement": "Amazons move like queens and knights. For ten or more amazons there is a placement in which none attacks another, for two to nine there is none. So the solver, on the file of Namazons-generator.hs for n amazons, prints SAT with a placement or TIMEOUT if n is at least 10, and UNSAT or TIMEOUT if n is less.", "quantifier": "every n (2 <= n <= 600 for the run of the solver), all options, every clock", "why_tests_cant": "All sizes; the search takes too long for most of them.", "anchors": ["benchmarks/Namazons/Namazons-generator.hs"]}
