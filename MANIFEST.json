{
 "claims": [
  {
   "property": "C01",
   "status": "proved",
   "theorems": [
    "C01_nc_sat"
   ],
   "note": "Hypotheses: wf (every domain has >= 2 values, no empty clause, literals inside the domains) and no repeated literal in a clause; both are necessary, see C25-C27."
  },
  {
   "property": "C02",
   "status": "proved",
   "theorems": [
    "C02_nc_unsat"
   ],
   "note": "Hypotheses: wf (every domain has >= 2 values, no empty clause, literals inside the domains) and no repeated literal in a clause; both are necessary, see C25-C27."
  },
  {
   "property": "C03",
   "status": "proved",
   "theorems": [
    "C03_nc_total"
   ],
   "note": "Hypotheses: wf (every domain has >= 2 values, no empty clause, literals inside the domains) and no repeated literal in a clause; both are necessary, see C25-C27. With the missing return of learnClause read leniently (C39)."
  },
  {
   "property": "C04",
   "status": "proved",
   "theorems": [
    "C04_wl_sat"
   ],
   "note": "Hypotheses: wf (every domain has >= 2 values, no empty clause, literals inside the domains) and no repeated literal in a clause; both are necessary, see C25-C27."
  },
  {
   "property": "C05",
   "status": "proved",
   "theorems": [
    "C05_wl_unsat"
   ],
   "note": "Hypotheses: wf (every domain has >= 2 values, no empty clause, literals inside the domains) and no repeated literal in a clause; both are necessary, see C25-C27."
  },
  {
   "property": "C06",
   "status": "proved",
   "theorems": [
    "C06_wl_total"
   ],
   "note": "Hypotheses: wf (every domain has >= 2 values, no empty clause, literals inside the domains) and no repeated literal in a clause; both are necessary, see C25-C27."
  },
  {
   "property": "C07",
   "status": "proved",
   "theorems": [
    "C07_ch_sat"
   ],
   "note": ""
  },
  {
   "property": "C08",
   "status": "proved",
   "theorems": [
    "C08_ch_unsat"
   ],
   "note": ""
  },
  {
   "property": "C09",
   "status": "proved",
   "theorems": [
    "C09_ch_total"
   ],
   "note": ""
  },
  {
   "property": "C10",
   "status": "proved",
   "theorems": [
    "C10_agree",
    "C10_decides"
   ],
   "note": ""
  },
  {
   "property": "C11",
   "status": "proved",
   "theorems": [
    "C11_model_complete",
    "C11_order"
   ],
   "note": ""
  },
  {
   "property": "C12",
   "status": "partial",
   "theorems": [
    "C12_lazy_model_partial",
    "C12_lazy_model_refuted"
   ],
   "note": "The stated property is false of the code (witness); the printed lines are proved to be part of a model."
  },
  {
   "property": "C13",
   "status": "proved",
   "theorems": [
    "C13_verify_exact",
    "C13_sat_verified",
    "C13_any_file"
   ],
   "note": ""
  },
  {
   "property": "C14",
   "status": "proved",
   "theorems": [
    "C14_timeout",
    "C14_no_timeout"
   ],
   "note": ""
  },
  {
   "property": "C15",
   "status": "proved",
   "theorems": [
    "C15_nc_learnt",
    "C15_wl_learnt",
    "C15_final_learnt"
   ],
   "note": "Hypotheses: wf (every domain has >= 2 values, no empty clause, literals inside the domains) and no repeated literal in a clause; both are necessary, see C25-C27."
  },
  {
   "property": "C16",
   "status": "proved",
   "theorems": [
    "C16_resolve_sound",
    "C16_resolve_literals"
   ],
   "note": ""
  },
  {
   "property": "C17",
   "status": "proved",
   "theorems": [
    "C17_nc_drives",
    "C17_wl_drives"
   ],
   "note": "Hypotheses: wf (every domain has >= 2 values, no empty clause, literals inside the domains) and no repeated literal in a clause; both are necessary, see C25-C27. The clause is unit after the jump unless the conflict triggers a restart (the code then jumps to level 0 instead)."
  },
  {
   "property": "C18",
   "status": "proved",
   "theorems": [
    "C18_nc_restored",
    "C18_wl_restored",
    "C18_ch_restored"
   ],
   "note": ""
  },
  {
   "property": "C19",
   "status": "proved",
   "theorems": [
    "C19_nc_bk",
    "C19_ch_bk"
   ],
   "note": ""
  },
  {
   "property": "C20",
   "status": "proved",
   "theorems": [
    "C20_nc_vsids",
    "C20_wl_vsids"
   ],
   "note": ""
  },
  {
   "property": "C21",
   "status": "proved",
   "theorems": [
    "C21_restarts"
   ],
   "note": ""
  },
  {
   "property": "C22",
   "status": "proved",
   "theorems": [
    "C22_stats"
   ],
   "note": ""
  },
  {
   "property": "C23",
   "status": "proved",
   "theorems": [
    "C23_read",
    "C23_solve",
    "C23_readable",
    "C23_documented",
    "C23_layout"
   ],
   "note": "Problems are well formed and their numbers fit in an int."
  },
  {
   "property": "C24",
   "status": "partial",
   "theorems": [
    "C24_short_lines_partial",
    "C24_long_line_refuted",
    "C24_cut"
   ],
   "note": "False for lines of 3000 characters or more (witness); proved for files with shorter lines. C24_cut says exactly what happens otherwise: the file ends at its first long line."
  },
  {
   "property": "C25",
   "status": "partial",
   "theorems": [
    "C25_blank_line_refuted",
    "C25_blank_line",
    "C25_blank_line_watched",
    "C25_blank_end"
   ],
   "note": "False: witness for each search; and for every file with a blank line SAT is never confirmed and -wl never ends regularly."
  },
  {
   "property": "C26",
   "status": "partial",
   "theorems": [
    "C26_one_value_refuted",
    "C26_unsat_partial",
    "C26_sat_partial"
   ],
   "note": "The stated property is false of the code (witness). The verdict is right if it is UNSAT, or if it is SAT and a line is printed for every variable (not Lazy); what is solved in general is C62."
  },
  {
   "property": "C27",
   "status": "partial",
   "theorems": [
    "C27_repeats_refuted",
    "C27_undefined_refuted",
    "C07_ch_sat",
    "C08_ch_unsat"
   ],
   "note": "False of -wl and, in that the analysis can leave the clause list, of -solvenc (witnesses); holds for -solvech, whose theorems do not need the hypothesis."
  },
  {
   "property": "C28",
   "status": "proved",
   "theorems": [
    "C28_solvenc",
    "C28_solvech",
    "C28_order",
    "C28_setting",
    "C28_numbers_solvenc",
    "C28_numbers_solvech",
    "C28_clause_size",
    "C28_documented_restarts_refuted",
    "C28_missing_number_refuted"
   ],
   "note": "The documented spelling -restarts is ignored, and a numeric option without its number is undefined behaviour; both are shown by witnesses."
  },
  {
   "property": "C29",
   "status": "partial",
   "theorems": [
    "C29_models",
    "C29_satisfiable",
    "C29_dimacs_unique",
    "C29_negative_literal_refuted",
    "C29_mvcnf_undefined",
    "C29_mvcnf_refuted"
   ],
   "note": "False when a two-valued variable occurs in an inequality (witness), undefined for the header p mvcnf of README.md; proved for all other files in the documented format with at least one clause whose numbers fit in an int."
  },
  {
   "property": "C30",
   "status": "partial",
   "theorems": [
    "C30_header",
    "C30_two_valued_refuted",
    "C30_no_clauses"
   ],
   "note": "Proved with the exact excess; the counts are exact iff no domain has two values (witness for the inexactness). A file without clauses gives an empty output."
  },
  {
   "property": "C31",
   "status": "partial",
   "theorems": [
    "C31_models",
    "C31_atom_cnf_unique",
    "C31_mvcnf_undefined",
    "C31_mvcnf_refuted"
   ],
   "note": "Proved for the header p cnf and domains of at most 12 values; undefined for p mvcnf and, see C32, for larger domains."
  },
  {
   "property": "C32",
   "status": "partial",
   "theorems": [
    "C32_header",
    "C32_overflow",
    "C32_large_domain_refuted",
    "C32_no_clauses"
   ],
   "note": "Proved for domains of at most 12 values; for any larger domain the factorials overflow."
  },
  {
   "property": "C33",
   "status": "partial",
   "theorems": [
    "C33_file_unique",
    "C33_layout",
    "C33_convert",
    "C33_models",
    "C33_long_clause_refuted",
    "C33_no_clauses"
   ],
   "note": "Holds if the CNF has a clause and no line of the Boolean file has 1500 characters. Refuted without the bound: a clause of 800 literals is written as a line at which the solver stops reading. Without clauses the conversion is undefined behaviour."
  },
  {
   "property": "C34",
   "status": "partial",
   "theorems": [
    "C34_declared_partial",
    "C34_no_zero_refuted",
    "C34_gap_refuted"
   ],
   "note": "False in general. Holds when some clause line contains the word 0; refuted without one. With an unused variable the domain lines are written but the solver reads out of bounds."
  },
  {
   "property": "C35",
   "status": "proved",
   "theorems": [
    "C35_satisfiable",
    "C23_unique"
   ],
   "note": "For every list of numbers returned by rand(); -domain at least 1 unless -drand is on."
  },
  {
   "property": "C36",
   "status": "proved",
   "theorems": [
    "C36_shape",
    "C36_finishes",
    "C36_never_finishes",
    "C36_drand_refuted"
   ],
   "note": "Also: generation can finish iff no clause needs more literals than there are variables, and -drand 1 can divide by zero."
  },
  {
   "property": "C37",
   "status": "partial",
   "theorems": [
    "C37_shape",
    "C37_finishes",
    "C37_never_finishes",
    "C37_satisfiable_refuted"
   ],
   "note": "False (witness). What the file does guarantee, the shape of the clauses, is proved."
  },
  {
   "property": "C38",
   "status": "partial",
   "theorems": [
    "C38_read_back",
    "C38_long_clause_refuted"
   ],
   "note": "Proved for clauses of at most 136 literals and domains of at least two values; refuted for long clauses."
  },
  {
   "property": "C39",
   "status": "partial",
   "theorems": [
    "C39_missing_return_refuted",
    "C39_strict",
    "C39_chrono"
   ],
   "note": "The stated property is false of the code (witness). C39_strict says exactly which runs are undefined: those with a backtrack; C39_chrono: -solvech never."
  },
  {
   "property": "C40",
   "status": "proved",
   "theorems": [
    "C40_end_to_end"
   ],
   "note": "Assumes the lenient reading of the missing return in learnClause, short lines, numbers that fit in an int and a non-negative -clausesize."
  },
  {
   "property": "C41",
   "status": "proved",
   "theorems": [
    "C41_entries",
    "C41_sum",
    "C41_nc_step",
    "C41_wl_step",
    "C41_nc_conflict",
    "C41_wl_conflict",
    "C41_chrono"
   ],
   "note": "The hypotheses of C01 apply to the learning searches; the statements about -solvech need wf only."
  },
  {
   "property": "C42",
   "status": "proved",
   "theorems": [
    "C42_clock",
    "C42_checks",
    "C42_chrono_checks"
   ],
   "note": "The hypotheses of C01 apply to the learning searches; the statements about -solvech need wf only."
  },
  {
   "property": "C43",
   "status": "proved",
   "theorems": [
    "C43_nc",
    "C43_wl",
    "C43_nc_decision",
    "C43_wl_decision"
   ],
   "note": "Hypotheses of C01; -solvech has no VSIDS."
  },
  {
   "property": "C44",
   "status": "proved",
   "theorems": [
    "C44_nc",
    "C44_ch",
    "C44_wl"
   ],
   "note": "Hypotheses of C01; for -solvech wf only."
  },
  {
   "property": "C45",
   "status": "proved",
   "theorems": [
    "C45_nc_stack",
    "C45_wl_stack",
    "C45_nc_decision",
    "C45_wl_decision",
    "C45_ch_stack",
    "C45_ch_decision"
   ],
   "note": "Hypotheses of C01; for -solvech wf only."
  },
  {
   "property": "C46",
   "status": "proved",
   "theorems": [
    "C46_nc_counted",
    "C46_ch_counted",
    "C46_wl_watched",
    "C46_nc_propagated",
    "C46_ch_propagated",
    "C46_wl_propagated"
   ],
   "note": "Hypotheses of C01; for -solvech wf only."
  },
  {
   "property": "C47",
   "status": "proved",
   "theorems": [
    "C47_solver",
    "C47_no_file",
    "C47_no_name"
   ],
   "note": "Hypotheses of C40. The three times and the log of -verbose are parameters of the machine."
  },
  {
   "property": "C48",
   "status": "proved",
   "theorems": [
    "C48_linear",
    "C48_quadratic",
    "C48_finite",
    "C48_no_input",
    "C48_no_output",
    "C48_no_name"
   ],
   "note": "The contents under the hypotheses of C29, C31 and C33; names identify files (no links)."
  },
  {
   "property": "C49",
   "status": "proved",
   "theorems": [
    "C49_same_file",
    "C49_same_file_b2f"
   ],
   "note": "For the same name; two names of one file are not modelled."
  },
  {
   "property": "C50",
   "status": "proved",
   "theorems": [
    "C50_options",
    "C50_no_output"
   ],
   "note": ""
  },
  {
   "property": "C51",
   "status": "proved",
   "theorems": [
    "C51_status",
    "C51_pages",
    "C51_no_number",
    "C51_word",
    "C51_endless",
    "C51_ends_refuted"
   ],
   "note": "The refutation is of termination at the end of the input."
  },
  {
   "property": "C52",
   "status": "proved",
   "theorems": [
    "C52_files",
    "C52_one_file"
   ],
   "note": ""
  },
  {
   "property": "C53",
   "status": "partial",
   "theorems": [
    "C53_linear_finite_solve",
    "C53_finite_solve",
    "C53_generate_solve",
    "C53_two_valued_refuted"
   ],
   "note": "For -linenc the domains have at least three values (refuted with a two-valued variable: the header is wrong and the reported model fails the check); lines of the intermediate file below 1500 characters; clauses of at most 136 generated literals."
  },
  {
   "property": "C54",
   "status": "proved",
   "theorems": [
    "C54_documented",
    "C54_run",
    "C54_files",
    "C54_names",
    "C54_puzzle"
   ],
   "note": "Runs: at least three pigeons (with two the only hole is a one-valued domain) and numbers that fit in an int. The number of clauses is computed in floating point by the generator, exact in this range."
  },
  {
   "property": "C55",
   "status": "proved",
   "theorems": [
    "C55_python",
    "C55_any_size"
   ],
   "note": ""
  },
  {
   "property": "C56",
   "status": "proved",
   "theorems": [
    "C56_queens",
    "C56_not_documented"
   ],
   "note": "Up to 800 queens, so that the number of clauses fits in an int."
  },
  {
   "property": "C57",
   "status": "proved",
   "theorems": [
    "C57_amazons"
   ],
   "note": "Up to 600, so that the number of clauses fits in an int."
  },
  {
   "property": "C58",
   "status": "proved",
   "theorems": [
    "C58_board",
    "C58_file",
    "C58_converted"
   ],
   "note": "The conversion up to 200 queens, so that lines and numbers fit."
  },
  {
   "property": "C59",
   "status": "proved",
   "theorems": [
    "C59_documented",
    "C59_ready",
    "C59_skip_refuted"
   ],
   "note": "The refutation is of -s leaving nothing behind. ASCII files without carriage returns; options and folders of the script are not modelled."
  },
  {
   "property": "C60",
   "status": "proved",
   "theorems": [
    "C60_row",
    "C60_output"
   ],
   "note": "For times, file names and logs without colons and without the letter T."
  },
  {
   "property": "C61",
   "status": "proved",
   "theorems": [
    "C61_nc_learned",
    "C61_wl_learned",
    "C61_unique"
   ],
   "note": "Hypotheses: wf (every domain has >= 2 values, no empty clause, literals inside the domains) and no repeated literal in a clause; both are necessary, see C25-C27."
  },
  {
   "property": "C62",
   "status": "proved",
   "theorems": [
    "C62_verdict",
    "C62_total",
    "C62_model"
   ],
   "note": "Hypotheses: literals inside their domains, no empty clause, and no repeated literal in a clause for the learning searches. The printed model for all heuristics but Lazy."
  },
  {
   "property": "C63",
   "status": "proved",
   "theorems": [
    "C63_report",
    "C63_safe",
    "C63_lists"
   ],
   "note": "Hypotheses: wf (every domain has >= 2 values, no empty clause, literals inside the domains) and no repeated literal in a clause; both are necessary, see C25-C27."
  },
  {
   "property": "C64",
   "status": "partial",
   "theorems": [
    "C64_destructor",
    "C64_destructor_refuted"
   ],
   "note": "False: the first record of a non-empty list is deleted twice (C64_destructor says when exactly). The destructor is dead code, so no run is affected."
  },
  {
   "property": "C65",
   "status": "proved",
   "theorems": [
    "C65_run",
    "C65_safe",
    "C65_owned"
   ],
   "note": "Hypotheses: wf (every domain has >= 2 values, no empty clause, literals inside the domains) and no repeated literal in a clause; both are necessary, see C25-C27."
  },
  {
   "property": "C66",
   "status": "proved",
   "theorems": [
    "C66_counts",
    "C66_int",
    "C66_nc",
    "C66_wl"
   ],
   "note": "Hypotheses: wf (every domain has >= 2 values, no empty clause, literals inside the domains) and no repeated literal in a clause; both are necessary, see C25-C27. The counters NumUnAss of clauses and the scores are not covered; the level at the end of a run is not covered."
  },
  {
   "property": "C67",
   "status": "partial",
   "theorems": [
    "C67_verdict_partial",
    "C67_units_refuted",
    "C67_restart_refuted",
    "C67_return_refuted",
    "C67_domain_refuted",
    "C67_size_one_refuted"
   ],
   "note": "Proved for well-formed problems with domains of at most 64 values and at most one clause about a single variable, without restarts, if leaving learnClause without a result is harmless. False in each of the four other cases: refuted by runs (but C77: every run that ends with no restart counted is right). Domains of one value are outside the statement; C67_size_one_refuted shows a wrong verdict there."
  },
  {
   "property": "C68",
   "status": "proved",
   "theorems": [
    "C68_checked"
   ],
   "note": "Hypotheses: wf and domains of at most 64 values."
  },
  {
   "property": "C69",
   "status": "proved",
   "theorems": [
    "C69_learned"
   ],
   "note": "Hypotheses: wf, domains of at most 64 values, at most one clause about a single variable, no restarts, leaving learnClause without a result is harmless."
  },
  {
   "property": "C70",
   "status": "partial",
   "theorems": [
    "C70_program_partial",
    "C70_checked",
    "C70_no_file",
    "C70_no_name",
    "C70_files",
    "C70_restart_refuted"
   ],
   "note": "The whole screen is proved under the hypotheses of C67 (no restarts, at most one clause about a single variable, domains of at most 64 values, lenient return) and for lines below 3000 characters; C70_checked holds with restarts and for all clauses. With restarts the run can be undefined behaviour (refuted by a run); C77 covers the runs that end with no restart counted."
  },
  {
   "property": "C71",
   "status": "proved",
   "theorems": [
    "C71_options",
    "C71_status",
    "C71_pages",
    "C71_word",
    "C71_endless",
    "C71_ends_refuted"
   ],
   "note": "As for the first program (C51) the menu is endless if the input ends after a choice."
  },
  {
   "property": "C72",
   "status": "proved",
   "theorems": [
    "C72_agree"
   ],
   "note": "Hypotheses: those of C47 and C70."
  },
  {
   "property": "C73",
   "status": "proved",
   "theorems": [
    "C73_scores"
   ],
   "note": "Hypotheses: wf and domains of at most 64 values."
  },
  {
   "property": "C74",
   "status": "proved",
   "theorems": [
    "C74_score_choice",
    "C74_watch_choice"
   ],
   "note": "C74_score_choice: wf and domains of at most 64 values. C74_watch_choice: also at most one clause about a single variable, no restarts, lenient return."
  },
  {
   "property": "C75",
   "status": "proved",
   "theorems": [
    "C75_conflict",
    "C75_unique"
   ],
   "note": "Hypotheses: wf, domains of at most 64 values, at most one clause about a single variable, no restarts, leaving learnClause without a result is harmless."
  },
  {
   "property": "C76",
   "status": "proved",
   "theorems": [
    "C76_thrown",
    "C76_read",
    "C76_program",
    "C76_messages",
    "C76_empty_refuted"
   ],
   "note": "C76_empty_refuted: a large domain that no clause mentions does not stop the program; an empty set of values is then printed for it and the check succeeds."
  },
  {
   "property": "C77",
   "status": "proved",
   "theorems": [
    "C77_outcome",
    "C77_ends",
    "C77_program"
   ],
   "note": "Hypotheses: wf and domains of at most 64 values; C77_outcome also no restarts and that leaving learnClause without a result is harmless."
  },
  {
   "property": "C78",
   "status": "proved",
   "theorems": [
    "C78_state",
    "C78_end",
    "C78_program"
   ],
   "note": "Hypotheses: wf and domains of at most 64 values."
  },
  {
   "property": "C79",
   "status": "proved",
   "theorems": [
    "C79_report",
    "C79_safe",
    "C79_outcome",
    "C79_memory",
    "C79_state",
    "C79_lone",
    "C79_twice_refuted",
    "C79_destructor"
   ],
   "note": "C79_outcome and C79_lone: wf, domains of at most 64 values, no restarts, leaving learnClause without a result is harmless.  C79_report, C79_safe, C79_memory and C79_state also cover restarts, as long as no clause is stored twice; C79_twice_refuted: with restarts a clause can be stored twice."
  },
  {
   "property": "C80",
   "status": "partial",
   "theorems": [
    "C80_ends",
    "C80_sat",
    "C80_other",
    "C80_half_partial",
    "C80_unsat_partial",
    "C80_size",
    "C80_sat_right",
    "C80_counts",
    "C80_unsat_refuted"
   ],
   "note": "Hypotheses: wf.  C80_half_partial says what UNSAT means when no clause has one literal; that UNSAT is right is false, see C80_unsat_refuted.  In general (C80_unsat_partial) some value does not occur in any model.  C80_sat_right needs a bound on literals and backtracks."
  },
  {
   "property": "C81",
   "status": "partial",
   "theorems": [
    "C81_outcome",
    "C81_sat",
    "C81_other_partial",
    "C81_conflicts",
    "C81_ends",
    "C81_unsat_refuted",
    "C81_stack_refuted"
   ],
   "note": "Hypotheses: wf.  That UNSAT is right, and that the decision stack is not read outside its bounds, is false.  C81_ends needs a bound on the size of the problem or a clock that rings for good."
  },
  {
   "property": "C82",
   "status": "proved",
   "theorems": [
    "C82_same",
    "C82_ignored",
    "C82_uninit_refuted",
    "C82_twice_refuted"
   ],
   "note": "C82_ignored: wf.  The refutations show that both errors occur."
  },
  {
   "property": "C83",
   "status": "partial",
   "theorems": [
    "C83_program_partial",
    "C83_checked",
    "C83_ends"
   ],
   "note": "Hypotheses: those in good_run (options known, all required ones given, numbers that can be reserved, an accepted file that announces the given numbers, wf).  That UNSAT is always right is false (C80_unsat_refuted, C81_unsat_refuted); C83_case shows the wrong answer on the screen."
  },
  {
   "property": "C84",
   "status": "proved",
   "theorems": [
    "C84_incomplete",
    "C84_no_file",
    "C84_mismatch",
    "C84_sizes",
    "C84_mvcnf"
   ],
   "note": "A problem line named mvcnf that follows another line with numbers is not covered by C84_mvcnf."
  },
  {
   "property": "C85",
   "status": "proved",
   "theorems": [
    "C85_same",
    "C85_generate",
    "C85_refused"
   ],
   "note": "Relative to the model of the program of src (C47-C54).  If a file name is missing (undefined behaviour in src), the first version uses the file die; this is modelled but not part of the theorem."
  },
  {
   "property": "C86",
   "status": "proved",
   "theorems": [
    "C86_solver",
    "C86_bitvec",
    "C86_original_clock",
    "C86_original"
   ],
   "note": "C86_solver: wf, accepted file, for -solvenc no repeated literals in a clause, learnClause returning.  C86_bitvec: runs that end.  C86_original_clock: good_run, runs that end; no upper bound on the checks of the learning search.  C86_original: good_run and a clause."
  },
  {
   "property": "C87",
   "status": "partial",
   "theorems": [
    "C87_fixed",
    "C87_fixed_all",
    "C87_fixed_error",
    "C87_fixed_convert",
    "C87_printed",
    "C87_printed_refuted",
    "C87_constant",
    "C87_constant_all",
    "C87_constant_error",
    "C87_constant_empty",
    "C87_constant_empty_refuted"
   ],
   "note": "The last sentence holds of the returned text of fixed_clauses.py if every variable occurs (C87_fixed_convert), and is false of the printed text: print adds an empty line, which the converter keeps and the solver reads as a clause, so that no SAT is confirmed and -wl never ends regularly (C87_printed, C87_printed_refuted).  The same happens when constant_probability.py draws an empty clause.  int() of the arguments is not modelled."
  },
  {
   "property": "C88",
   "status": "proved",
   "theorems": [
    "C88_counts",
    "C88_int",
    "C88_state"
   ],
   "note": "For runs of the model that end without undefined behaviour, and for every state at the start of an iteration. The level is bounded from above only; scores are not covered."
  },
  {
   "property": "C89",
   "status": "proved",
   "theorems": [
    "C89_chrono",
    "C89_loop",
    "C89_loop_int",
    "C89_chrono_int"
   ],
   "note": "For runs of the model that end in a report, wf.  The bound of the recursive search depends on the number of backtracks.  The occurrence counters of atoms and clauses are not covered by C89."
  },
  {
   "property": "C90",
   "status": "partial",
   "theorems": [
    "C90_script",
    "C90_none",
    "C90_stop",
    "C90_folders",
    "C90_graphs",
    "C90_done_refuted"
   ],
   "note": "False in two points: DONE is also printed when an error has ended the conversion before later files (C90_done_refuted, C90_stop), because exit() gives status 0; and the reported line number is always 1 (C90_stop, C90_case).  C90_graphs needs numbers that fit in an int, lines below 3000 characters and no edge from a vertex to itself, as C59.  With -s a file with an error leaves its clauses behind (C59)."
  },
  {
   "property": "C91",
   "status": "proved",
   "theorems": [
    "C91_queens",
    "C91_pigeons",
    "C91_copy",
    "C91_elsewhere",
    "C91_copy_refuted"
   ],
   "note": "Under the conditions of C54 on the missing return; no NUL in the home folder and the times, no colon or T for the table.  C91_elsewhere needs that no older files of the problems are where the solver looks.  C91_copy_refuted: text after a NUL would be lost; the solver prints none."
  },
  {
   "property": "C92",
   "status": "proved",
   "theorems": [
    "C92_solvable",
    "C92_run",
    "C92_sat"
   ],
   "note": "Under the conditions of C54 on the missing return and the clause size."
  },
  {
   "property": "C93",
   "status": "proved",
   "theorems": [
    "C93_solvable",
    "C93_run"
   ],
   "note": "Under the conditions of C54 on the missing return and the clause size."
  }
 ]
}