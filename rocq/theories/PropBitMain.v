(** * Theorems about the program of the second solver

    [bmain fuel args w] is a run of the program built from bitvec/ with the arguments [args] on the
    machine [w]: what is written to standard output, the exit status and the files afterwards. *)

From Coq Require Import Ascii String Permutation.
From Verif Require Import Spec Outcome State ModelBuild ModelSearch Observe Cases TextSpec ModelText ModelRead CliSpec ModelCli Text Read Cli
  ModelGen ModelMenu ModelMain MainSpec MainFacts MainMore Pipe PropMain FileUnique FileCases
  ModelBit BitSpec BitBuild BitSafe BitRuns PropBit ModelBitMain BitMainSpec BitMainFacts.
#[local] Open Scope char_scope.
#[local] Open Scope Z_scope.

(** ** C70: what the program prints *)

Theorem C70_program_partial os w f t p :
  Forall bit_option os -> latest sel_file os None = Some f -> files_of w f = Some t ->
  0 <= latest sel_size os 3 -> latest sel_restart os 0 <= 0 -> missing_return w = true ->
  wf p -> fits64 p -> lone p -> fits_int p -> accepted p t -> lines_below 3000 t ->
  exists N v rest d u b,
    right_sets p (latest sel_verbose os false) (late_at w (latest sel_time os 3600)) v rest /\ 0 <= b /\
    forall fuel, (N <= fuel)%nat ->
      bmain fuel (txt "-solvenc" :: args_of os) w =
      Ok (mkRan (solver_screen f (time1 w) (time2 w) (time3 w)
                   ((if latest sel_verbose os false then logged w else []) ++ (if text_eqb v (txt "UNSAT") then txt "UNSAT" ++ [LF] else []))
                   (answer_lines v d u b 0 (nvars p) (Z.of_nat (length (clauses p)) + b) 0 ++ rest)) 0 (files_of w)).
Proof. exact (bmain_ok os w f t p). Qed.
Print Assumptions C70_program_partial.

(** Whatever the options, restarts included: if the run ends by saying that the model is correct,
    then every way to pick values from the sets printed above is a model. *)
Theorem C70_checked fuel os w f t p r x :
  Forall bit_option os -> latest sel_file os None = Some f -> files_of w f = Some t -> 0 <= latest sel_size os 3 ->
  wf p -> fits64 p -> fits_int p -> accepted p t -> lines_below 3000 t ->
  bmain fuel (txt "-solvenc" :: args_of os) w = Ok r ->
  screen r = x ++ txt "model is CORRECT" ++ [LF] ->
  exists y S, screen r = y ++ unlines (sets_lines (latest sel_verbose os false) (nvars p) S) /\ sets_good p S.
Proof. exact (bmain_checked fuel os w f t p r x). Qed.
Print Assumptions C70_checked.

Theorem C70_no_file fuel os w f : Forall bit_option os -> latest sel_file os None = Some f -> files_of w f = None ->
  bmain fuel (txt "-solvenc" :: args_of os) w =
  Ok (mkRan (title ++ unlines (error_lines (txt "Could not open input file : "))) 1 (files_of w)).
Proof. exact (bmain_no_file fuel os w f). Qed.
Print Assumptions C70_no_file.

Theorem C70_no_name fuel os w : Forall bit_option os -> latest sel_file os None = None ->
  bmain fuel (txt "-solvenc" :: args_of os) w = Undef NullArg.
Proof. exact (bmain_no_name fuel os w). Qed.
Print Assumptions C70_no_name.

(** No run changes a file. *)
Theorem C70_files fuel args w r : bmain fuel args w = Ok r -> after r = files_of w.
Proof. exact (bmain_files fuel args w r). Qed.
Print Assumptions C70_files.

Definition os_bit : list opt := [OWl; OVsids; OLazy; OFile (txt "g"); OVerbose; OFile (txt "f"); OWord (txt "huh")].
Definition w_bit : machine := a_machine (two_files (txt "f") (layout p_sat) (txt "g") []) [] [].

Example C70_hypotheses : (Forall bit_option os_bit /\ latest sel_file os_bit None = Some (txt "f") /\ files_of w_bit (txt "f") = Some (layout p_sat) /\
    0 <= latest sel_size os_bit 3 /\ latest sel_restart os_bit 0 <= 0 /\ missing_return w_bit = true) /\
  (wf p_sat /\ fits64 p_sat /\ lone p_sat) /\ fits_int p_sat /\ accepted p_sat (layout p_sat) /\ lines_below 3000 (layout p_sat).
Proof.
  split; [|split; [apply C67_hypotheses|]].
  - split; [|repeat split; vm_compute; congruence].
    repeat constructor. intro Q. cbn in Q. repeat destruct Q as [Q|Q]; try discriminate; auto.
  - assert (F : fits_int p_sat).
    { split; [vm_compute; discriminate|]. split; [vm_compute; discriminate|]. intros d Hd. cbn in Hd. unfold int_max. intuition lia. }
    split; [exact F|]. split; [apply readable_accepted, documented_readable; [exact F|apply layout_documented]|].
    eapply lines_below_intro; [split; [|left; reflexivity]; apply no_lf_ok; reflexivity|]. apply below_ok. vm_compute. reflexivity.
Qed.
Definition row64 (v : string) (low : string) : text := txt v ++ txt "=" ++ repeat "0"%char 60 ++ txt low.
Example C70_case : exists r, bmain 200 (txt "-solvenc" :: args_of os_bit) w_bit = Ok r /\ status r = 0 /\
  screen r = solver_screen (txt "f") (txt "0.1") (txt "0.2") (txt "0.3") []
    (answer_lines (txt "SAT") 5 2 1 0 4 11 0 ++
     [txt "The model: "; row64 "0" "0000"; row64 "1" "0001"; row64 "2" "0001"; row64 "3" "0001"; row64 "4" "0001"; [];
      txt "Verifying model ... model is CORRECT"]).
Proof. eexists. split; [vm_compute; reflexivity|]. split; vm_compute; reflexivity. Qed.

(** With a restart the run can be undefined behaviour. *)
Definition os_restart : list opt := [OFile (txt "f"); ORestart 1].
Theorem C70_restart_refuted : Forall bit_option os_restart /\ latest sel_file os_restart None = Some (txt "f") /\
  files_of w_bit (txt "f") = Some (layout p_sat) /\ satisfiable p_sat /\
  bmain 200 (txt "-solvenc" :: args_of os_restart) w_bit = Undef OobClause.
Proof.
  split; [repeat constructor; vm_compute; congruence|]. split; [reflexivity|]. split; [reflexivity|].
  split; [apply p_sat_satisfiable|]. vm_compute. reflexivity.
Qed.
Print Assumptions C70_restart_refuted.

(** ** C71: the options and the menu *)

(** The last option of a kind counts; -lazy and -vsids_pos of the first program are ignored. *)
Theorem C71_options os : Forall bit_option os ->
  exists c, bdispatch (txt "-solvenc" :: args_of os) = Ok (Some c) /\
    c_file c = latest sel_file os None /\ c_time c = latest sel_time os 3600 /\ c_restarts c = latest sel_restart os 0 /\
    c_clause_size c = latest sel_size os 3 /\ c_log c = latest sel_verbose os false /\
    (c_heur c = VSIDS <-> latest sel_vsids os false = true) /\ c_model c = true.
Proof.
  intro H. exists (fold_left bit_apply os bdefault). pose proof (bit_dispatch os H) as D. split; [exact D|].
  destruct (bit_fields os bdefault) as (E1 & E2 & E3 & E4 & E5 & E6). do 5 (split; [assumption|]). split; [|exact (bit_model _ _ D)].
  cbn in E6. rewrite <- E6. unfold is_vsids. destruct (c_heur _); split; congruence.
Qed.
Print Assumptions C71_options.

Example C71_options_case : Forall bit_option os_bit /\ latest sel_vsids os_bit false = true /\ latest sel_verbose os_bit false = true.
Proof. split; [apply C70_hypotheses|split; reflexivity]. Qed.

(** The menu is shown exactly if the first argument is not -solvenc; the run then ends, if it
    does, with status 1. *)
Theorem C71_status fuel args w r : asks_menu args -> bmain fuel args w = Ok r -> status r = 1 /\ after r = files_of w.
Proof.
  intros A E. unfold bmain in E. rewrite (menu_dispatch args A) in E. cbn [bind] in E. destruct (bmenu fuel _ _ _); try discriminate.
  injection E as <-. split; reflexivity.
Qed.
Print Assumptions C71_status.

(** The pages chosen are shown in order until 0 is entered. *)
Theorem C71_pages args w ks rest fuel : asks_menu args ->
  Forall choice ks -> (forall a r, rest = a :: r -> digit a = None) ->
  stdin_of w = entered ks ++ txt "0" ++ rest -> (length ks < fuel)%nat ->
  bmain fuel args w = Ok (mkRan (title ++ List.concat (map bpage (map (fun e => fst (fst e)) ks ++ [0]))) 1 (files_of w)).
Proof.
  intros A F S Ei L. unfold bmain. rewrite (menu_dispatch args A). cbn [bind]. rewrite Ei. change (txt "0") with (num 0).
  assert (SR : stops rest). { destruct rest as [|a r]; [exact I|]. cbn [stops]. unfold is_digit. rewrite (S a r eq_refl). reflexivity. }
  rewrite bmenu_reads by auto. cbn [bind]. rewrite banner_title. reflexivity.
Qed.
Print Assumptions C71_pages.

(** Anything that is not a number, after any choices, leads to the exit. *)
Theorem C71_word args w ks u fuel : asks_menu args -> Forall choice ks -> stdin_of w = entered ks ++ u ->
  (exists sp a r, u = sp ++ a :: r /\ Forall space_char sp /\ ~ space_char a /\ ~ a_digit a /\
     ((a = "+"%char \/ a = "-"%char) -> forall b r', r = b :: r' -> ~ a_digit b)) ->
  (length ks < fuel)%nat ->
  bmain fuel args w = Ok (mkRan (title ++ List.concat (map bpage (map (fun e => fst (fst e)) ks ++ [0]))) 1 (files_of w)).
Proof.
  intros Ed F Ei (sp & a & r & -> & S & A1 & A2 & A3) L. unfold bmain. rewrite (menu_dispatch args Ed). cbn [bind]. rewrite Ei.
  assert (E : skip_space (sp ++ a :: r) = a :: r) by (rewrite skip_sp, skip_none; auto).
  rewrite bmenu_word; [cbn [bind]; rewrite banner_title; reflexivity|exact F|rewrite E; discriminate| |exact L].
  rewrite E. intros z q Q.
  assert (D : forall b, ~ a_digit b -> digit b = None). { intros b N. destruct (digit b) eqn:G; auto. apply digit_is in G. contradiction. }
  destruct (ascii_dec a "+") as [->|N1]; [|destruct (ascii_dec a "-") as [->|N2]].
  - change (scan_nat r = Some (z, q)) in Q. destruct r as [|b r']; [discriminate|]. cbn [scan_nat] in Q.
    rewrite D in Q; [discriminate|]. apply (A3 (or_introl eq_refl) b r' eq_refl).
  - change (match scan_nat r with Some (z, r) => Some (- z, r) | None => None end = Some (z, q)) in Q. destruct r as [|b r']; [discriminate|]. cbn [scan_nat] in Q.
    rewrite D in Q; [discriminate|]. apply (A3 (or_intror eq_refl) b r' eq_refl).
  - rewrite scan_signed in Q by auto. cbn [scan_nat] in Q. rewrite D in Q; [discriminate|auto].
Qed.
Print Assumptions C71_word.

(** If the input ends after a choice then the program prints the same page for ever. *)
Theorem C71_endless args w ks b fuel : asks_menu args -> Forall choice ks -> ks <> [] ->
  (forall a, In a b -> isspace a = true) -> stdin_of w = entered ks ++ b -> bmain fuel args w = OutOfFuel.
Proof. intros Ed F N B Ei. unfold bmain. rewrite (menu_dispatch args Ed). cbn [bind]. rewrite Ei, bmenu_endless by auto. reflexivity. Qed.
Print Assumptions C71_endless.

Theorem C71_ends_refuted : exists w, forall fuel, bmain fuel [] w = OutOfFuel.
Proof.
  exists (a_machine (fun _ => None) (txt "1" ++ [LF; LF]) []). intro fuel.
  apply (C71_endless [] _ [(1, LF, LF)] []); try reflexivity; try discriminate.
  - repeat constructor; vm_compute; congruence.
  - intros a [].
Qed.
Print Assumptions C71_ends_refuted.

Example C71_case : asks_menu (map txt ["-solve"; "-file"; "f"]%string) /\
  (exists r, bmain 9 (map txt ["-solve"; "-file"; "f"]%string) (a_machine (fun _ => None) (txt "1" ++ [LF; LF] ++ txt "-7" ++ [LF; LF] ++ txt "0" ++ [LF]) []) = Ok r /\
    screen r = title ++ bmenu_text ++ LF :: bmenu_1 ++ bmenu_text ++ LF :: bmenu_text ++ LF :: bmenu_0) /\
  (exists r, bmain 9 [] (a_machine (fun _ => None) (txt "1" ++ [LF; LF] ++ txt "quit" ++ [LF]) []) = Ok r /\
    screen r = title ++ bpage 1 ++ bpage 0).
Proof.
  split; [intros rest E; discriminate E|]. split; (eexists; split; vm_compute; reflexivity).
Qed.

(** ** C72: the two programs agree *)

(** On one file the two programs give the same answer, unless one of them is out of time. *)
Theorem C72_agree args c m os w1 w2 f1 f2 t p :
  dispatch args = Ok (SolveFinite c m) -> c_file c = Some f1 -> files_of w1 f1 = Some t -> 0 <= c_clause_size c ->
  missing_return w1 = true -> (m = NonChrono -> no_repeats p) ->
  Forall bit_option os -> latest sel_file os None = Some f2 -> files_of w2 f2 = Some t ->
  0 <= latest sel_size os 3 -> latest sel_restart os 0 <= 0 -> missing_return w2 = true ->
  wf p -> fits64 p -> lone p -> fits_int p -> accepted p t -> lines_below 3000 t ->
  exists N v1 v2 r1 r2,
    (forall fuel, (N <= fuel)%nat -> main fuel args w1 = Ok r1 /\ bmain fuel (txt "-solvenc" :: args_of os) w2 = Ok r2) /\
    shows r1 v1 /\ shows r2 v2 /\
    (v1 = v2 \/ v1 = txt "TIMEOUT" /\ (exists k, late_at w1 (c_time c) k = true) \/ v2 = txt "TIMEOUT" /\ (exists k, late_at w2 (latest sel_time os 3600) k = true)).
Proof. exact (two_programs args c m os w1 w2 f1 f2 t p). Qed.
Print Assumptions C72_agree.

Example C72_case : exists c, dispatch (map txt ["-solvenc"; "-wl"; "-file"; "f"]%string) = Ok (SolveFinite c NonChrono) /\ c_file c = Some (txt "f") /\
  0 <= c_clause_size c /\ no_repeats p_sat.
Proof. eexists. split; [vm_compute; reflexivity|]. split; [reflexivity|]. split; [vm_compute; congruence|]. apply p_sat_fine. Qed.
