(** * Theorems about problem files and the command line

    [build_file c t] is BuildFormula on a file with the text [t]; [solve_file] runs SolveFinite
    on it; [dispatch args] is main up to the call of the selected function; [solve_finite] is
    SolveFinite with a file system. *)

From Coq Require Import Ascii String Permutation.
From Verif Require Import Spec Outcome State ModelBuild ModelSearch Observe Runs Cases
  TextSpec ModelText ModelRead Text Read CliSpec ModelCli Cli ReadBuild Keep Strict FileCases.
#[local] Open Scope Z_scope.

(** ** C23: documented files are read back exactly *)

Theorem C23_read c p t : wf p -> fits_int p -> accepted p t -> lines_below 3000 t ->
  exists s, build_file c t = Ok s /\ NV (tr s) = nvars p /\ (forall v, DOM (tr s) v = domsize p v) /\ cl s = clauses p.
Proof. apply build_accepted. Qed.
Print Assumptions C23_read.

(** The theorems about [solve] therefore hold of files. *)
Theorem C23_solve fuel m c clk r p t : wf p -> fits_int p -> accepted p t -> lines_below 3000 t ->
  solve_file fuel m c clk r t = solve fuel m c clk r p.
Proof. apply solve_accepted. Qed.
Print Assumptions C23_solve.

(** Documented files are readable; the closing [0] of a clause line makes no difference. *)
Theorem C23_documented p t : documented p t -> readable p t.
Proof. apply documented_readable. Qed.
Print Assumptions C23_documented.

(** The problem line may as well be missing, stand elsewhere or give other numbers. *)
Theorem C23_readable p t : fits_int p -> readable p t -> accepted p t.
Proof. apply readable_accepted. Qed.
Print Assumptions C23_readable.

(** Every problem has a documented file. *)
Theorem C23_layout p : documented p (layout p).
Proof. apply layout_documented. Qed.
Print Assumptions C23_layout.

Example f_readme_fine : wf p_readme /\ fits_int p_readme /\ documented p_readme f_readme /\ lines_below 3000 f_readme.
Proof.
  split; [apply wf_dec; reflexivity|]. split; [|split].
  - split; [|split]; [vm_compute; discriminate|vm_compute; discriminate|].
    intros d [<-|[<-|[<-|[]]]]; vm_compute; discriminate.
  - right. eexists _, _, [_; _; _], [_; _; _; _]. split; [split; [|left; reflexivity]; apply no_lf_ok; reflexivity|].
    split; [vm_compute; reflexivity|]. split; [|split].
    + split; [eexists; reflexivity|vm_compute; reflexivity].
    + repeat split; try (eexists; reflexivity).
    + repeat constructor.
  - eapply lines_below_intro; [split; [|left; reflexivity]; apply no_lf_ok; reflexivity|].
    apply below_ok. vm_compute. reflexivity.
Qed.
Example C23_case : verdict_of (solve_file 100 NonChrono (nc BK) never 0 f_readme) = Some (SAT, 0, Some true).
Proof. vm_compute; reflexivity. Qed.

(** ** C24: over-long lines *)

(** If all lines are short then every line that is not a comment, problem or domain line becomes
    a clause, whatever it contains. *)
Theorem C24_short_lines_partial c t ls s : has_lines t ls -> (forall l, In l ls -> Z.of_nat (length l) < 3000) ->
  build_file c t = Ok s -> length (cl s) = length (filter clause_row ls).
Proof. apply every_row. Qed.
Print Assumptions C24_short_lines_partial.

Example C24_case : match build_file (nc BK) f_readme with Ok s => length (cl s) = 4%nat | _ => False end.
Proof. vm_compute; reflexivity. Qed.

(** The first line of 3000 or more characters ends the reading of the file: the solver does what
    it does on the file of the lines before it, whatever the long line says and whatever follows. *)
Theorem C24_cut fuel m c clk r ls u v :
  (forall l, In l ls -> ~ In LF l) -> (forall l, In l ls -> Z.of_nat (length l) < 3000) ->
  ~ In LF u -> 3000 <= Z.of_nat (length u) ->
  solve_file fuel m c clk r (unlines ls ++ u ++ v) = solve_file fuel m c clk r (unlines ls).
Proof. intros N S Nu Lu. unfold solve_file, build_file. rewrite long_line_cuts by assumption. reflexivity. Qed.
Print Assumptions C24_cut.

Example C24_cut_case :
  f_long = (unlines [txt "p cnf 1 2"; txt "d 1 2"; txt "1=0 0"] ++ long_comment ++ unlines [[]; txt "1!=0 0"])%list /\
  existsb (Ascii.eqb LF) long_comment = false /\ 3000 <= Z.of_nat (length long_comment).
Proof. repeat split; vm_compute; congruence. Qed.

(** A comment of 3000 characters hides the clauses after it: SAT is reported, and confirmed by
    the self-check, for a file that describes an unsatisfiable problem. *)
Theorem C24_long_line_refuted :
  exists p t, wf p /\ no_repeats p /\ fits_int p /\ documented p t /\ lines_below 3001 t /\ ~ satisfiable p /\
    verdict_of (solve_file 50 NonChrono (nc BK) never 0 t) = Some (SAT, 0, Some true) /\
    verdict_of (solve_file 50 NonChrono (wl VSIDS) never 0 t) = Some (SAT, 0, Some true) /\
    verdict_of (solve_file 50 Chrono (nc BK) never 0 t) = Some (SAT, 0, Some true).
Proof.
  exists p_long, f_long. split; [apply wf_dec; reflexivity|]. split; [apply no_repeats_dec; reflexivity|].
  assert (HL : has_lines f_long [txt "p cnf 1 2"; txt "d 1 2"; txt "1=0 0"; long_comment; txt "1!=0 0"]).
  { split; [|left; reflexivity]. apply no_lf_ok. vm_compute. reflexivity. }
  split; [|split; [|split; [|split]]].
  - split; [|split]; [vm_compute; discriminate|vm_compute; discriminate|].
    intros d [<-|[]]; vm_compute; discriminate.
  - left. exists [txt "p cnf 1 2"; txt "d 1 2"; txt "1=0 0"; long_comment; txt "1!=0 0"], (txt "p cnf 1 2"), [txt "d 1 2"],
      [txt "1=0 0"; txt "1!=0 0"]. split; auto. split; [reflexivity|]. split; [|split].
    + split; [eexists; reflexivity|vm_compute; reflexivity].
    + repeat split; try (eexists; reflexivity).
    + repeat constructor.
  - eapply lines_below_intro; [exact HL|]. apply below_ok. vm_compute. reflexivity.
  - intros (a & _ & M). destruct (M [veq 1 0]) as (l & [<-|[]] & H); [left; auto|].
    destruct (M [vne 1 0]) as (l & [<-|[]] & H'); [right; left; auto|]. apply H'. exact H.
  - repeat split; vm_compute; reflexivity.
Qed.
Print Assumptions C24_long_line_refuted.

(** ** C25: blank lines *)

(** A blank line at the end of the file of a satisfiable problem: the counter-based searches
    report SAT but the self-check fails, -wl reads out of bounds. *)
Theorem C25_blank_line_refuted :
  exists p t, wf p /\ no_repeats p /\ satisfiable p /\ documented p t /\ lines_below 3000 t /\
    verdict_of (solve_file 50 NonChrono (nc BK) never 0 (t ++ [LF])) = Some (SAT, 0, Some false) /\
    verdict_of (solve_file 50 Chrono (nc BK) never 0 (t ++ [LF])) = Some (SAT, 0, Some false) /\
    solve_file 50 NonChrono (wl VSIDS) never 0 (t ++ [LF]) = Undef OobClause.
Proof.
  exists (mkProblem [3] [[vne 1 0]]), (layout (mkProblem [3] [[vne 1 0]])).
  split; [apply wf_dec; reflexivity|]. split; [apply no_repeats_dec; reflexivity|].
  split; [exists (fun _ => 1); split|split; [apply layout_documented|split]].
  - intros x Hx. replace x with 1 by (unfold nvars in Hx; simpl in Hx; lia). vm_compute. split; congruence.
  - intros c [<-|[]]. eexists. split; [left; reflexivity|]. vm_compute. discriminate.
  - eapply lines_below_intro; [split; [|left; reflexivity]; apply no_lf_ok; reflexivity|].
    apply below_ok. vm_compute. reflexivity.
  - repeat split; vm_compute; reflexivity.
Qed.
Print Assumptions C25_blank_line_refuted.

(** A blank line anywhere, in any file: SAT is never confirmed by the self-check, and with -wl
    no run ends regularly. *)
Theorem C25_blank_line fuel m c clk r t ls l rep s : has_lines t ls -> lines_below 3000 t -> In l ls -> words l = [] ->
  solve_file fuel m c clk r t = Ok (rep, s) -> r_verdict rep = SAT -> r_verified rep = Some false.
Proof. apply blank_unverified. Qed.
Print Assumptions C25_blank_line.

Theorem C25_blank_line_watched fuel m c clk r t ls l : has_lines t ls -> lines_below 3000 t -> In l ls -> words l = [] ->
  watch c = true -> forall x, solve_file fuel m c clk r t <> Ok x.
Proof. apply blank_watched. Qed.
Print Assumptions C25_blank_line_watched.

(** After the last line of a file that is read back, it is the access to the first literal. *)
Theorem C25_blank_end c p ls : wf p -> fits_int p -> (forall l, In l ls -> ~ In LF l) -> lines_below 3000 (unlines ls) ->
  accepted p (unlines ls) -> watch c = true -> build_file c (unlines ls ++ [LF]) = Undef OobClause.
Proof. apply blank_end_watched. Qed.
Print Assumptions C25_blank_end.

Example C25_case : exists t ls l, has_lines t ls /\ lines_below 3000 t /\ In l ls /\ words l = [] /\
  verdict_of (solve_file 50 NonChrono (nc BK) never 0 t) = Some (SAT, 0, Some false).
Proof.
  exists (unlines (map txt ["p cnf 1 2"; "d 1 3"; "   "; "1!=0 0"]%string)), (map txt ["p cnf 1 2"; "d 1 3"; "   "; "1!=0 0"]%string), (txt "   ").
  assert (H : has_lines (unlines (map txt ["p cnf 1 2"; "d 1 3"; "   "; "1!=0 0"]%string)) (map txt ["p cnf 1 2"; "d 1 3"; "   "; "1!=0 0"]%string))
    by (split; [apply no_lf_ok; reflexivity|left; reflexivity]).
  split; [exact H|]. split; [eapply lines_below_intro; [exact H|apply below_ok; vm_compute; reflexivity]|].
  split; [right; right; left; reflexivity|]. split; vm_compute; reflexivity.
Qed.

(** ** C13, for any file: SAT confirmed by the self-check means that every clause that was read
    has a literal that is true in the final state. *)
Theorem C13_any_file fuel m c clk r t rep s : solve_file fuel m c clk r t = Ok (rep, s) -> r_verdict rep = SAT ->
  exists s0 b, build_file c t = Ok s0 /\ r_verified rep = Some b /\
    (b = true -> forall C, In C (cl s0) -> exists l, In l C /\ ASG (tr s) (lvar l) (lval l) = if leq l then Pos else Neg).
Proof. apply any_file_checked. Qed.
Print Assumptions C13_any_file.

(** ** C28: the command line *)

(** The fields after any list of options of -solvenc. *)
Theorem C28_solvenc os : Forall nc_option os ->
  exists c, dispatch (txt "-solvenc" :: args_of os) = Ok (SolveFinite c NonChrono) /\
    c_file c = latest sel_file os None /\ c_time c = latest sel_time os 3600000 /\
    c_restarts c = latest sel_restart os 0 /\ c_watch c = latest sel_wl os false /\
    c_clause_size c = latest sel_size os 3 /\ c_log c = latest sel_verbose os false /\
    c_heur c = latest sel_heur os (if c_watch c then VSIDS else BK).
Proof.
  intro H. eexists. split; [apply nc_dispatch; auto|].
  destruct (nc_fields os default_cline) as (E1 & E2 & E3 & E4 & E5 & E6 & E7). cbn in E1, E2, E3, E4, E5, E6.
  rewrite E7, E4. repeat (split; auto).
Qed.
Print Assumptions C28_solvenc.

Theorem C28_solvech os : Forall ch_option os ->
  exists c, dispatch (txt "-solvech" :: args_of os) = Ok (SolveFinite c Chrono) /\
    c_file c = latest sel_file os None /\ c_time c = latest sel_time os 3600000 /\
    c_clause_size c = latest sel_size os 3 /\ c_log c = latest sel_verbose os false /\
    c_watch c = false /\ c_restarts c = 0 /\ c_heur c = latest sel_heur os BK.
Proof.
  intro H. eexists. split; [apply ch_dispatch; auto|]. apply (ch_fields os default_cline H).
Qed.
Print Assumptions C28_solvech.

(** The order of the options does not matter if no two are about the same thing. *)
Theorem C28_order os os' : Permutation os os' -> NoDup (map about os) ->
  (Forall nc_option os -> dispatch (txt "-solvenc" :: args_of os) = dispatch (txt "-solvenc" :: args_of os')) /\
  (Forall ch_option os -> dispatch (txt "-solvech" :: args_of os) = dispatch (txt "-solvech" :: args_of os')).
Proof. intros P N. split; intro H; [apply nc_order|apply ch_order]; auto. Qed.
Print Assumptions C28_order.

(** Whatever the arguments, -wl never runs with the bookkeeping heuristic, and -solvech always
    runs with bookkeeping or lazy. *)
Theorem C28_setting args c m : dispatch args = Ok (SolveFinite c m) ->
  match m with
  | NonChrono => c_watch c = true -> c_heur c <> BK
  | Chrono => c_watch c = false /\ (c_heur c = BK \/ c_heur c = Lazy)
  end.
Proof.
  intro E. pose proof (dispatch_setting args c m true E eq_refl) as S. destruct m; [exact S|exact (proj2 S)].
Qed.
Print Assumptions C28_setting.

(** The value of a word that stands where a number is expected: "+07x" is 7, "all" is 0; a number
    that does not fit in an int is undefined behaviour. *)
Theorem C28_numbers_solvenc os a w z rest : Forall nc_option os ->
  In a (map txt ["-restart"; "-var"; "-clause"; "-clausesize"; "-time"]%string) -> value_of w z ->
  (an_int z -> dispatch (txt "-solvenc" :: args_of os ++ a :: w :: rest) = dispatch (txt "-solvenc" :: args_of os ++ a :: num z :: rest)) /\
  (~ an_int z -> dispatch (txt "-solvenc" :: args_of os ++ a :: w :: rest) = Undef BadScan).
Proof. apply nc_number_prop. Qed.
Print Assumptions C28_numbers_solvenc.

Theorem C28_numbers_solvech os a w z rest : Forall ch_option os ->
  In a (map txt ["-var"; "-clause"; "-clausesize"; "-time"]%string) -> value_of w z ->
  (an_int z -> dispatch (txt "-solvech" :: args_of os ++ a :: w :: rest) = dispatch (txt "-solvech" :: args_of os ++ a :: num z :: rest)) /\
  (~ an_int z -> dispatch (txt "-solvech" :: args_of os ++ a :: w :: rest) = Undef BadScan).
Proof. apply ch_number_prop. Qed.
Print Assumptions C28_numbers_solvech.

Example C28_numbers_case : value_of (txt " +07x") 7 /\ value_of (txt "-12") (-12) /\ value_of (txt "all") 0 /\ value_of (txt "-+3") 0 /\
  value_of (txt "99999999999") 99999999999 /\
  (exists c, dispatch (map txt ["-solvenc"; "-wl"; "-restart"; " +07x"; "-time"; "all"; "-file"; "f"]%string) = Ok (SolveFinite c NonChrono) /\
     c_restarts c = 7 /\ c_time c = 0 /\ c_file c = Some (txt "f")).
Proof.
  split; [apply (VNumber [" "%char] (txt "+") [0; 7]%nat (txt "x"))|split; [apply (VNumber [] (txt "-") [1; 2]%nat [])|
    split; [apply (VNothing [] (txt "") (txt "all"))|split; [apply (VNothing [] (txt "-") (txt "+3"))|
    split; [apply (VNumber [] (txt "") [9; 9; 9; 9; 9; 9; 9; 9; 9; 9; 9]%nat [])|eexists; split; [reflexivity|repeat split]]]]]].
  all: try discriminate; try (repeat constructor; fail); try (cbn; tauto).
  all: try (intros a r E; injection E as <- <-).
  all: try (intros (d & H & E); do 10 (destruct d as [|d]; [discriminate E|]); lia).
  all: split; [intros (d & H & E); do 10 (destruct d as [|d]; [discriminate E|]); lia|].
  - intros _. split; [intro H; cbn in H; intuition discriminate|split; discriminate].
  - discriminate.
Qed.

(** A negative -clausesize is an exception as soon as the file has a line; otherwise the value
    of the option does not matter. *)
Theorem C28_clause_size fuel len clk fs c m f t ls :
  c_file c = Some f -> fs f = Some t -> has_lines t ls -> lines_below 3000 t ->
  solve_finite fuel len clk fs c m =
  if (c_clause_size c <? 0) && negb (Nat.eqb (length ls) 0) then Undef BadAlloc
  else let* q := solve_file fuel m (mkCfg (c_heur c) (c_watch c) len) clk (c_restarts c) t in
       let (rep, s) := q in Ok (Solved rep s).
Proof. apply clause_size_run. Qed.
Print Assumptions C28_clause_size.

Example C28_clause_size_case :
  solve_finite 50 true never (fun _ => Some (layout p_unsat)) (with_file (Some (txt "f")) (with_clause_size (-1) default_cline)) Chrono = Undef BadAlloc.
Proof. vm_compute; reflexivity. Qed.

(** The option is spelled -restarts in README.md; that spelling is ignored. *)
Theorem C28_documented_restarts_refuted :
  exists c, dispatch (map txt ["-solvenc"; "-file"; "f"; "-restarts"; "100"]%string) = Ok (SolveFinite c NonChrono) /\
    c_restarts c = 0.
Proof. eexists. split; reflexivity. Qed.
Print Assumptions C28_documented_restarts_refuted.

(** A trailing option without its number is undefined behaviour. *)
Theorem C28_missing_number_refuted : dispatch (map txt ["-solvenc"; "-file"; "f"; "-time"]%string) = Undef NullArg.
Proof. reflexivity. Qed.
Print Assumptions C28_missing_number_refuted.

Definition os_case : list opt := [OFile (txt "f"); OLazy; OWord (txt "extra"); OWl; ORestart 100].
Example C28_case : Forall nc_option os_case /\ NoDup (map about os_case) /\
  exists c, dispatch (txt "-solvenc" :: args_of os_case) = Ok (SolveFinite c NonChrono) /\
    c_heur c = Lazy /\ c_watch c = true /\ c_restarts c = 100.
Proof.
  split; [|split].
  - repeat constructor; try (vm_compute; congruence).
    intro H. cbn in H. repeat destruct H as [H|H]; try discriminate; auto.
  - repeat constructor; cbn; intuition discriminate.
  - eexists. split; [reflexivity|]. split; reflexivity || (split; reflexivity).
Qed.

(** ** C40: end to end *)

(** For any arguments that select the solver and name a file with a documented well-formed
    problem: with enough fuel a verdict is reported, and it is right unless it is TIMEOUT; there
    is no undefined behaviour. *)
Theorem C40_end_to_end args c m clk fs f t p :
  dispatch args = Ok (SolveFinite c m) -> c_file c = Some f -> fs f = Some t -> 0 <= c_clause_size c ->
  wf p -> (m = NonChrono -> no_repeats p) -> fits_int p -> accepted p t -> lines_below 3000 t ->
  (exists N rep s, (forall fuel, (N <= fuel)%nat -> solve_finite fuel true clk fs c m = Ok (Solved rep s)) /\
     (r_verdict rep = SAT -> satisfiable p) /\ (r_verdict rep = UNSAT -> ~ satisfiable p) /\
     (r_verdict rep = TIMEOUT -> exists k, clk k = true)) /\
  (forall fuel u, solve_finite fuel true clk fs c m <> Undef u).
Proof. apply end_to_end. Qed.
Print Assumptions C40_end_to_end.

Definition one_file (name content : text) : files := fun f => if text_eqb f name then Some content else None.

Example C40_case : forall cmd,
  In cmd (map (fun os => map txt os) [["-solvenc"; "-file"; "f"]; ["-solvenc"; "-wl"; "-restart"; "2"; "-file"; "f"];
                                      ["-solvech"; "-lazy"; "-file"; "f"]]%string) ->
  match dispatch cmd with
  | Ok (SolveFinite c m) =>
      match solve_finite 300 true never (one_file (txt "f") (layout p_unsat)) c m with
      | Ok (Solved rep _) => r_verdict rep = UNSAT
      | _ => False
      end
  | _ => False
  end.
Proof. intros cmd [<-|[<-|[<-|[]]]]; vm_compute; reflexivity. Qed.

(** ** C39: the missing return of learnClause, exactly *)

(** Whatever the file says: read strictly, a run of NonChronoBacktrack or WatchedLiterals is the
    lenient run if that has no backtrack, and undefined otherwise. *)
Theorem C39_strict h w fuel clk r t rep s :
  solve_file fuel NonChrono (mkCfg h w true) clk r t = Ok (rep, s) ->
  solve_file fuel NonChrono (mkCfg h w false) clk r t =
    if r_backtracks rep =? 0 then Ok (rep, s) else Undef NoReturn.
Proof. apply solve_file_strict. Qed.
Print Assumptions C39_strict.

(** ChronoBacktrack does not depend on it. *)
Theorem C39_chrono h w b b' fuel clk r t :
  solve_file fuel Chrono (mkCfg h w b) clk r t = solve_file fuel Chrono (mkCfg h w b') clk r t.
Proof. apply solve_file_chrono. Qed.
Print Assumptions C39_chrono.

Example C39_strict_case :
  verdict_of (solve_file 100 NonChrono (nc BK) never 0 f_readme) = Some (SAT, 0, Some true) /\
  verdict_of (solve_file 100 NonChrono (mkCfg BK false false) never 0 f_readme) = Some (SAT, 0, Some true) /\
  verdict_of (solve_file 100 NonChrono (wl VSIDS) never 0 (layout p_unsat)) = Some (UNSAT, 5, None) /\
  solve_file 100 NonChrono (mkCfg VSIDS true false) never 0 (layout p_unsat) = Undef NoReturn.
Proof. repeat split; vm_compute; reflexivity. Qed.
