(** * Theorems about the program of the first version

    [o_main fuel e args w] is a run of the program built from original_solver/ with the arguments [args]
    on the machine [w]; [e] is what the pointer ENTAILLITERAL holds at the start. *)

From Coq Require Import Ascii String.
From Verif Require Import Spec Outcome State ModelBuild ModelSearch Observe Cases TextSpec ModelText ModelRead CliSpec ModelCli Text Read Cli
  ModelGen ModelMenu ModelMain MainSpec MainFacts MainMore PropMain FileUnique FileCases
  ModelOrig OrigSpec ModelOrigMain OrigMainSpec OrigMainFacts PropOrig.
#[local] Open Scope Z_scope.

(** ** C83: the answers *)

(** Full statement: the answer is right.  It is false for UNSAT after decisions (C80, C81); [orig_right]
    says what each answer means. *)
Theorem C83_program_partial fuel e learning os w f p r : good_run os (files_of w) f p ->
  o_main fuel e (solve_word learning :: args_of os) w = Ok r ->
  exists v note rest d u b n l k,
    screen r = orig_screen f (time1 w) (time2 w) (time3 w) note (orig_answer v d u b n l (nvars p) k ++ rest) /\
    status r = 0 /\ after r = files_of w /\
    orig_right p learning (late_at w (latest sel_time os 3600)) d b v note rest /\
    k = Z.of_nat (length (clauses p)) + if learning then b else 0.
Proof. exact (oprogram fuel e learning os w f p r). Qed.
Print Assumptions C83_program_partial.

Theorem C83_checked fuel e learning os w f p r x : good_run os (files_of w) f p ->
  o_main fuel e (solve_word learning :: args_of os) w = Ok r ->
  screen r = x ++ txt "model is CORRECT" ++ [LF] -> satisfiable p.
Proof. exact (ochecked fuel e learning os w f p r x). Qed.
Print Assumptions C83_checked.

(** A run ends with an answer or by one of the three errors of C80-C82. *)
Theorem C83_ends learning os w f p : good_run os (files_of w) f p ->
  learning = false \/ (4 * atoms p + 3) * (literals p + atoms p) <= 1000000000 \/ (exists K, forall k, (K <= k)%nat -> late_at w (latest sel_time os 3600) k = true) ->
  forall e, exists N, forall fuel, (N <= fuel)%nat ->
    match o_main fuel e (solve_word learning :: args_of os) w with
    | Ok r => True
    | Undef u => u = Uninit \/ u = BadPtr \/ learning = true /\ u = OobStack
    | OutOfFuel => False
    end.
Proof. exact (oends learning os w f p). Qed.
Print Assumptions C83_ends.

Definition os_orig (n m : Z) : list opt :=
  [OVar n; OWord (txt "-bool"); OClause 7; OFile (txt "g"); OModelFile (txt "-var"); OClauseSize 5; OFile (txt "f"); OClause m; OTime 9].
Definition w_orig (p : problem) : machine := a_machine (two_files (txt "f") (layout p) (txt "g") []) [] [].

Lemma os_orig_ok n m : an_int n -> an_int m -> Forall orig_option (os_orig n m).
Proof.
  intros N M. repeat (apply Forall_cons || apply Forall_nil); cbn [orig_option]; auto; try (unfold an_int; lia).
  intro Q. cbn in Q. repeat destruct Q as [Q|Q]; try discriminate; auto.
Qed.
Lemma os_orig_complete n m : n <> -1 -> m <> -1 -> complete (os_orig n m).
Proof. intros N M. repeat split; cbn; auto; discriminate. Qed.

Lemma p_half_fits : fits_int p_half.
Proof. split; [vm_compute; discriminate|]. split; [vm_compute; discriminate|]. intros d Hd. cbn in Hd. unfold int_max. intuition lia. Qed.
Lemma p_half_short : lines_below 3000 (layout p_half).
Proof. eapply lines_below_intro; [split; [|left; reflexivity]; apply no_lf_ok; reflexivity|]. apply below_ok. vm_compute. reflexivity. Qed.

Example C83_hypotheses : good_run (os_orig 2 3) (files_of (w_orig p_half)) (txt "f") p_half /\
  (4 * atoms p_half + 3) * (literals p_half + atoms p_half) <= 1000000000.
Proof.
  split; [|vm_compute; discriminate]. constructor.
  - apply os_orig_ok; unfold an_int; lia.
  - apply os_orig_complete; lia.
  - split; cbn; lia.
  - reflexivity.
  - exists (layout p_half). split; [reflexivity|]. split; [exact p_half_fits|].
    split; [apply readable_accepted, documented_readable; [exact p_half_fits|apply layout_documented]|].
    split; [exact p_half_short|]. apply (announced_as p_half); [exact p_half_fits|apply layout_documented_as].
  - cbn. lia.
  - apply wf_dec; reflexivity.
Qed.

(** The wrong answer of C80, and a right one, on the screen. *)
Example C83_case :
  (exists r, o_main 100 PUninit (solve_word false :: args_of (os_orig 2 3)) (w_orig p_half) = Ok r /\ status r = 0 /\
    screen r = orig_screen (txt "f") (txt "0.1") (txt "0.2") (txt "0.3") [] (orig_answer (txt "UNSAT") 1 1 1 0 0 2 3)) /\
  (exists r, o_main 100 PNull (solve_word true :: args_of (os_orig 4 10)) (w_orig p_sat) = Ok r /\
    screen r = orig_screen (txt "f") (txt "0.1") (txt "0.2") (txt "0.3") []
                 (orig_answer (txt "SAT") 2 0 0 0 2 4 10 ++ checked_lines true)).
Proof. split; eexists; vm_compute; repeat split. Qed.

(** ** C84: what is refused *)

Theorem C84_incomplete fuel e learning os w : Forall orig_option os -> ~ complete os ->
  o_main fuel e (solve_word learning :: args_of os) w = Ok (mkRan incorrect_screen 1 (files_of w)).
Proof. exact (oincomplete fuel e learning os w). Qed.
Print Assumptions C84_incomplete.

Theorem C84_no_file fuel e learning os w f : Forall orig_option os -> complete os -> sizes_fit os -> the_file os = Some f -> files_of w f = None ->
  o_main fuel e (solve_word learning :: args_of os) w =
  Ok (mkRan (orig_title ++ unlines (error_lines (txt "Could not open input file : "))) 1 (files_of w)).
Proof. exact (ono_file fuel e learning os w f). Qed.
Print Assumptions C84_no_file.

(** A file whose numbers differ from those of the command line. *)
Theorem C84_mismatch fuel e learning os w f t p : Forall orig_option os -> complete os -> sizes_fit os -> the_file os = Some f -> files_of w f = Some t ->
  fits_int p -> documented_as (txt "cnf") p t -> lines_below 3000 t ->
  latest sel_var os (-1) <> nvars p \/ latest sel_clause os (-1) <> Z.of_nat (length (clauses p)) ->
  o_main fuel e (solve_word learning :: args_of os) w = Ok (mkRan mismatch_screen 1 (files_of w)).
Proof. exact (omismatch fuel e learning os w f t p). Qed.
Print Assumptions C84_mismatch.

(** Not refused, but undefined: numbers that cannot be reserved, and the name of the format in README.md. *)
Theorem C84_sizes fuel e learning os w : Forall orig_option os -> complete os -> ~ sizes_fit os ->
  o_main fuel e (solve_word learning :: args_of os) w = Undef BadAlloc \/ o_main fuel e (solve_word learning :: args_of os) w = Undef Overflow.
Proof. exact (osizes fuel e learning os w). Qed.
Print Assumptions C84_sizes.

Theorem C84_mvcnf fuel e learning os w f t p : Forall orig_option os -> complete os -> sizes_fit os -> the_file os = Some f -> files_of w f = Some t ->
  documented_as (txt "mvcnf") p t -> lines_below 3000 t ->
  o_main fuel e (solve_word learning :: args_of os) w = Undef Uninit.
Proof. exact (omvcnf fuel e learning os w f t p). Qed.
Print Assumptions C84_mvcnf.

Definition mv_file : text := unlines (map txt ["c a comment"; "p mvcnf 1 1"; "d 1 2"; "1=0 0"]%string).
Example C84_case :
  (Forall orig_option [OVar 2; OFile (txt "f")] /\ ~ complete [OVar 2; OFile (txt "f")] /\ ~ complete (os_orig (-1) 3) /\
   ~ complete [OVar 2; OClause 3] /\ ~ complete [OVar 2; OClause 3; OFile (txt "die")]) /\
  (complete (os_orig 2 4) /\ sizes_fit (os_orig 2 4) /\ ~ sizes_fit (os_orig (-2) 3) /\ complete (os_orig (-2) 3)) /\
  (fits_int p_half /\ documented_as (txt "cnf") p_half (layout p_half) /\ lines_below 3000 (layout p_half) /\ 4 <> Z.of_nat (length (clauses p_half))) /\
  (documented_as (txt "mvcnf") (mkProblem [2] [[veq 1 0]]) mv_file /\ lines_below 3000 mv_file) /\
  files_of (w_orig p_half) (txt "h") = None.
Proof.
  split.
  { split; [repeat constructor; cbn; unfold an_int; lia|]. unfold complete. cbn. intuition congruence. }
  split.
  { split; [apply os_orig_complete; lia|]. split; [split; cbn; lia|]. split; [unfold sizes_fit; cbn; lia|apply os_orig_complete; lia]. }
  split.
  { split; [exact p_half_fits|]. split; [apply layout_documented_as|]. split; [exact p_half_short|]. cbn. lia. }
  split; [|reflexivity]. split.
  - exists (map txt ["c a comment"; "p mvcnf 1 1"; "d 1 2"; "1=0 0"]%string), (txt "p mvcnf 1 1"), [txt "d 1 2"], [txt "1=0 0"].
    split; [split; [apply no_lf_ok; reflexivity|left; reflexivity]|]. split; [reflexivity|].
    split; [split; [eexists; reflexivity|reflexivity]|]. split; [cbn; repeat split; eexists; reflexivity|]. repeat constructor.
  - eapply lines_below_intro; [split; [|left; reflexivity]; apply no_lf_ok; reflexivity|]. apply below_ok. vm_compute. reflexivity.
Qed.

(** ** C85: the converters, the generators and the menu *)

(** If the first argument is neither -solvech nor -solvenc, the program does what that of src does, with
    another title; but -genben can be refused. *)
Theorem C85_same fuel e args w r : (forall rest, args <> txt "-solvech" :: rest /\ args <> txt "-solvenc" :: rest) ->
  main fuel args w = Ok r -> exists u, screen r = title ++ u /\
  (o_main fuel e args w = Ok (mkRan (orig_title ++ u) (status r) (after r)) \/
   (exists rest, args = txt "-genben" :: rest) /\ o_main fuel e args w = Ok (mkRan incorrect_screen 1 (files_of w))).
Proof. exact (omain_same fuel e args w r). Qed.
Print Assumptions C85_same.

(** It is refused if and only if -var, -clause or -file is missing (or is given as -1, -1 or die). *)
Theorem C85_generate fuel e os w r : Forall gen_option os -> gen_complete os ->
  main fuel (txt "-genben" :: List.concat (map gen_text os)) w = Ok r ->
  exists u, screen r = title ++ u /\
    o_main fuel e (txt "-genben" :: List.concat (map gen_text os)) w = Ok (mkRan (orig_title ++ u) (status r) (after r)).
Proof. exact (omain_gen_same fuel e os w r). Qed.
Print Assumptions C85_generate.

Theorem C85_refused fuel e os w : Forall gen_option os ->
  o_main fuel e (txt "-genben" :: List.concat (map gen_text os)) w = Ok (mkRan incorrect_screen 1 (files_of w)) \/ gen_complete os.
Proof. exact (omain_gen fuel e os w). Qed.
Print Assumptions C85_refused.

Definition os_make : list gen_opt := [GVar 3; GClause 2; GSize 2; GBool 1; GDomain 4; GFile (txt "new")].
Definition w_make : machine := a_machine (two_files (txt "f") (layout p_sat) [] []) [] (repeat 1 60 ++ map Z.of_nat (seq 0 60)).
Example C85_case :
  (Forall gen_option os_make /\ gen_complete os_make /\ ~ gen_complete [GVar 3; GFile (txt "new")]) /\
  (exists r, main 0 (txt "-genben" :: List.concat (map gen_text os_make)) w_make = Ok r /\ exists t, after r (txt "new") = Some t) /\
  (exists r, main 0 (map txt ["-linenc"; "-file"; "f"; "-model"; "new"]%string) w_make = Ok r /\
     exists r', o_main 0 PUninit (map txt ["-linenc"; "-file"; "f"; "-model"; "new"]%string) w_make = Ok r' /\
     after r' (txt "new") = after r (txt "new") /\ screen r' = orig_title).
Proof.
  split; [|split].
  - split; [repeat constructor; cbn; unfold an_int; lia|]. unfold gen_complete. cbn. split; [repeat split; discriminate|]. intuition congruence.
  - eexists. split; [vm_compute; reflexivity|]. eexists. vm_compute. reflexivity.
  - eexists. split; [vm_compute; reflexivity|]. eexists. split; [vm_compute; reflexivity|]. split; vm_compute; reflexivity.
Qed.
