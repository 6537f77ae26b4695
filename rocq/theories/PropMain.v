(** * Theorems about the whole program

    [main fuel args w] is a run of the program with the arguments [args] on the machine [w]:
    what is written to standard output, the exit status and the files afterwards. *)

From Coq Require Import Ascii String Permutation.
From Verif Require Import Spec Outcome State ModelBuild ModelSearch Observe Cases TextSpec ModelText ModelRead CliSpec ModelCli
  EncodeSpec ModelEncode ModelB2f ModelGen Text Cli Encode EncodeMore EncodeProofs B2f Gen GenFin GenText GenBool FileUnique FileCases
  EncodeCases ConvertCases ModelMenu ModelMain MainSpec MainFacts MainMore Pipe.
#[local] Open Scope char_scope.
#[local] Open Scope Z_scope.

(** ** C47: what the solver prints *)

Theorem C47_solver args c m w f t p :
  dispatch args = Ok (SolveFinite c m) -> c_file c = Some f -> files_of w f = Some t -> 0 <= c_clause_size c ->
  missing_return w = true ->
  wf p -> (m = NonChrono -> no_repeats p) -> fits_int p -> accepted p t -> lines_below 3000 t ->
  exists N v rest d u b e n r,
    right p (lazy_of c) (c_log c) (late_at w (c_time c)) v rest /\
    n = Z.of_nat (length (clauses p)) + match m with Chrono => 0 | NonChrono => b end /\
    r = match m with Chrono => 0 | NonChrono => if 0 <? c_restarts c then b / c_restarts c else 0 end /\
    forall fuel, (N <= fuel)%nat ->
      main fuel args w =
      Ok (mkRan (solver_screen f (time1 w) (time2 w) (time3 w) ((if c_log c then logged w else []) ++ early c m v)
                   (answer_lines v d u b e (nvars p) n r ++ rest)) 0 (files_of w)).
Proof. apply solver_run. Qed.
Print Assumptions C47_solver.

Theorem C47_no_file fuel args c m w f : dispatch args = Ok (SolveFinite c m) -> c_file c = Some f -> files_of w f = None ->
  main fuel args w = Ok (mkRan (title ++ unlines (error_lines (txt "Could not open input file : "))) 1 (files_of w)).
Proof. apply solver_no_file. Qed.
Print Assumptions C47_no_file.

Theorem C47_no_name fuel args c m w : dispatch args = Ok (SolveFinite c m) -> c_file c = None -> main fuel args w = Undef NullArg.
Proof. apply solver_no_name. Qed.
Print Assumptions C47_no_name.

(** A machine with some files, on which every file can be written. *)
Definition a_machine (fs : files) (input : text) (numbers : list Z) : machine :=
  mkMachine fs (fun _ => true) input numbers (fun _ => 0) (txt "0.1") (txt "0.2") (txt "0.3") [] true.
Definition two_files (n1 t1 n2 t2 : text) : files :=
  fun f => if text_eqb f n1 then Some t1 else if text_eqb f n2 then Some t2 else None.
Definition p_small : problem := mkProblem [3; 2] [[mkLit 1 0 false; mkLit 2 1 true]; [mkLit 2 0 true]; [mkLit 1 2 true; mkLit 2 1 true]].

Example C47_case : exists r, main 100 (map txt ["-solvenc"; "-wl"; "-file"; "f"]%string) (a_machine (two_files (txt "f") (layout p_small) [] []) [] []) = Ok r /\
  status r = 0 /\
  screen r = title ++ txt "f" ++ SP :: TAB :: txt "0.1" ++ TAB :: txt "0.2" ++ TAB :: SP :: txt "0.3" ++ TAB ::
    unlines [[]; []; BEL :: txt "SAT"; []; txt "Decisions   : 0"; txt "Units       : 3"; txt "Backtracks  : 0"; txt "Entails     : 0";
             txt "Variables   : 2"; txt "Clauses     : 3"; txt "Restarts   : 0"; []; txt "The model: "; txt "2=0"; txt "1=2";
             txt "Verifying model ... model is CORRECT"].
Proof. eexists. split; [vm_compute; reflexivity|]. split; vm_compute; reflexivity. Qed.

(** ** C48: the converters *)

Theorem C48_linear w os f g t p : names os f g -> f <> g -> files_of w f = Some t -> writable w g = true ->
  wf p -> clauses p <> [] -> two_valued_positive p ->
  4 * zsum (doms p) + Z.of_nat (length (clauses p)) <= int_max ->
  documented_as (txt "cnf") p t -> lines_below 3000 t ->
  exists t' r nv nc fm e, (forall fuel, main fuel (txt "-linenc" :: args_of os) w = Ok r) /\ wrote w g t' r /\ dimacs nv nc fm t' /\
    (forall a, is_model p a -> exists b, cnf_holds b fm /\ corresponds p e b a) /\
    (forall b, cnf_holds b fm -> exists a, is_model p a /\ corresponds p e b a).
Proof.
  intros (H & Ef & Eg) N Et Ew W NE TV F D L. destruct (conv_dispatch os H) as (c & Cf & Cg & _ & E & _).
  assert (F2 : 2 * zsum (doms p) <= int_max).
  { destruct W as (W1 & _). assert (0 <= zsum (doms p)) by (apply zsum_nonneg; intros x Hx; specialize (W1 x Hx); lia). lia. }
  destruct (linear_models p t W NE TV F2 F D L) as (t' & nv & nc & fm & e & Et' & Q).
  exists t', (mkRan title 0 (write_file (files_of w) g t')), nv, nc, fm, e. split; [|split; [apply wrote_run|exact Q]].
  intro fuel. unfold main. rewrite E. cbn [bind]. apply (convert_run _ _ _ w c f g t t'); congruence.
Qed.
Print Assumptions C48_linear.

Theorem C48_quadratic w os f g t p : names os f g -> f <> g -> files_of w f = Some t -> writable w g = true ->
  wf p -> clauses p <> [] -> (forall d, In d (doms p) -> d <= 12) ->
  12 * nvars p <= int_max -> 67 * nvars p + Z.of_nat (length (clauses p)) <= int_max ->
  documented_as (txt "cnf") p t -> lines_below 3000 t ->
  exists t' r nv nc fm, (forall fuel, main fuel (txt "-quadenc" :: args_of os) w = Ok r) /\ wrote w g t' r /\ atom_cnf nv nc fm t' /\
    (forall a, is_model p a -> exists b, atoms_hold b fm /\ atoms_correspond p b a) /\
    (forall b, atoms_hold b fm -> exists a, is_model p a /\ atoms_correspond p b a).
Proof.
  intros (H & Ef & Eg) N Et Ew W NE TV F1 F2 D L. destruct (conv_dispatch os H) as (c & Cf & Cg & _ & _ & E).
  destruct (quadratic_models p t W NE TV F1 F2 D L) as (t' & nv & nc & fm & Et' & Q).
  exists t', (mkRan title 0 (write_file (files_of w) g t')), nv, nc, fm. split; [|split; [apply wrote_run|exact Q]].
  intro fuel. unfold main. rewrite E. cbn [bind]. apply (convert_run _ _ _ w c f g t t'); congruence.
Qed.
Print Assumptions C48_quadratic.

Theorem C48_finite w os f g t n fm : names os f g -> f <> g -> files_of w f = Some t -> writable w g = true ->
  bool_cnf n fm -> fm <> [] -> 0 <= n <= int_max -> bool_file n fm t -> lines_below 3000 t ->
  exists t' r, (forall fuel, main fuel (txt "-b2f" :: args_of os) w = Ok r) /\ wrote w g t' r /\ readable (finite_of n fm) t'.
Proof.
  intros (H & Ef & Eg) N Et Ew B NE F D L. destruct (conv_dispatch os H) as (c & Cf & Cg & E & _ & _).
  destruct (b2f_written n fm t B NE F D L) as (t' & Et' & Q & _).
  exists t', (mkRan title 0 (write_file (files_of w) g t')). split; [|split; [apply wrote_run|exact Q]].
  intro fuel. unfold main. rewrite E. cbn [bind]. apply (convert_run _ _ _ w c f g t t'); congruence.
Qed.
Print Assumptions C48_finite.

(** What is printed if a file cannot be opened; nothing is written then. *)
Theorem C48_no_input fuel w os f : Forall conv_option os -> latest sel_file os None = Some f -> files_of w f = None ->
  main fuel (txt "-linenc" :: args_of os) w =
    Ok (mkRan (title ++ unlines (error_lines (txt "Could not open input file : "))) 1 (files_of w)) /\
  main fuel (txt "-quadenc" :: args_of os) w =
    Ok (mkRan (title ++ unlines (error_lines (txt "Could not open input file : " ++ f))) 1 (files_of w)) /\
  main fuel (txt "-b2f" :: args_of os) w =
    Ok (mkRan (title ++ unlines (error_lines (txt "Could not open input file"))) 1 (files_of w)).
Proof.
  intros H Ef Et. destruct (conv_dispatch os H) as (c & Cf & _ & E1 & E2 & E3). unfold main. rewrite E1, E2, E3. cbn [bind].
  unfold run_convert. rewrite Cf, Ef, Et, banner_title. repeat split. unfold no_file_named, say.
  do 3 f_equal. unfold unlines, error_lines. cbn [map List.concat app]. rewrite <- !app_assoc. reflexivity.
Qed.
Print Assumptions C48_no_input.

Theorem C48_no_output fuel w os f g t : names os f g -> files_of w f = Some t -> writable w g = false ->
  main fuel (txt "-linenc" :: args_of os) w =
    Ok (mkRan (title ++ unlines (error_lines (txt "Could not open output file : "))) 1 (files_of w)) /\
  main fuel (txt "-quadenc" :: args_of os) w =
    Ok (mkRan (title ++ unlines (error_lines (txt "Could not open output file : " ++ g))) 1 (files_of w)) /\
  main fuel (txt "-b2f" :: args_of os) w =
    Ok (mkRan (title ++ unlines (error_lines (txt "Could not open input file"))) 1 (files_of w)).
Proof.
  intros (H & Ef & Eg) Et Ew. destruct (conv_dispatch os H) as (c & Cf & Cg & E1 & E2 & E3). unfold main. rewrite E1, E2, E3. cbn [bind].
  unfold run_convert. rewrite Cf, Ef, Et, Cg, Eg, Ew, banner_title. repeat split. unfold no_file_named, say.
  do 3 f_equal. unfold unlines, error_lines. cbn [map List.concat app]. rewrite <- !app_assoc. reflexivity.
Qed.
Print Assumptions C48_no_output.

(** Without a file name a null pointer is used as one. *)
Theorem C48_no_name fuel w os a : Forall conv_option os -> In a (map txt ["-linenc"; "-quadenc"; "-b2f"]%string) ->
  (latest sel_file os None = None \/
   (exists f t, latest sel_file os None = Some f /\ files_of w f = Some t) /\ latest sel_model os None = None) ->
  main fuel (a :: args_of os) w = Undef NullArg.
Proof.
  intros H Ha Q. destruct (conv_dispatch os H) as (c & Cf & Cg & E1 & E2 & E3).
  assert (G : forall conv i o, run_convert conv i o w c = Undef NullArg).
  { intros conv i o. unfold run_convert. rewrite Cf, Cg. destruct Q as [->|((f & t & -> & ->) & ->)]; reflexivity. }
  unfold main. destruct Ha as [<-|[<-|[<-|[]]]]; [rewrite E2|rewrite E3|rewrite E1]; cbn [bind]; apply G.
Qed.
Print Assumptions C48_no_name.

Definition os_conv : list opt := [OWord (txt "-v"); OModelFile (txt "g"); OFile (txt "f")].
Example C48_case : names os_conv (txt "f") (txt "g") /\
  exists r, main 0 (txt "-b2f" :: args_of os_conv) (a_machine (two_files (txt "f") f_bool (txt "g") []) [] []) = Ok r /\
    after r (txt "g") = Some (unlines (map txt
      ["c three variables"; "p cnf 3 3"; "c"; "d 1 2"; "d 2 2"; "d 3 2"; "1=1 2=0 "; "2=1 3=1 "; "3=0 1=0 2=1 "]%string)).
Proof.
  split; [|eexists; split; vm_compute; reflexivity]. split; [|split; reflexivity].
  repeat constructor. intro Q. cbn in Q. repeat destruct Q as [Q|Q]; try discriminate; auto.
Qed.

(** ** C49: one file for input and output *)

(** The encoders empty the file and report success. *)
Theorem C49_same_file w os f t a : names os f f -> files_of w f = Some t -> writable w f = true ->
  In a (map txt ["-linenc"; "-quadenc"]%string) ->
  exists r, (forall fuel, main fuel (a :: args_of os) w = Ok r) /\ wrote w f [] r.
Proof.
  intros (H & Ef & Eg) Et Ew Ha. destruct (conv_dispatch os H) as (c & Cf & Cg & E1 & E2 & E3).
  exists (mkRan title 0 (write_file (files_of w) f [])). split; [|apply wrote_run]. intro fuel. unfold main.
  destruct Ha as [<-|[<-|[]]]; [rewrite E2|rewrite E3]; cbn [bind]; rewrite (convert_same _ _ _ w c f t); congruence || reflexivity.
Qed.
Print Assumptions C49_same_file.

(** The converter is undefined behaviour then. *)
Theorem C49_same_file_b2f fuel w os f t : names os f f -> files_of w f = Some t -> writable w f = true ->
  main fuel (txt "-b2f" :: args_of os) w = Undef BadIter.
Proof.
  intros (H & Ef & Eg) Et Ew. destruct (conv_dispatch os H) as (c & Cf & Cg & E1 & _). unfold main.
  rewrite E1. cbn [bind]. rewrite (convert_same _ _ _ w c f t); congruence || reflexivity.
Qed.
Print Assumptions C49_same_file_b2f.

Definition os_same : list opt := [OModelFile (txt "f"); OFile (txt "f")].
Example C49_case : names os_same (txt "f") (txt "f") /\
  exists r, main 0 (txt "-linenc" :: args_of os_same) (a_machine (two_files (txt "f") f_enc [] []) [] []) = Ok r /\ after r (txt "f") = Some [].
Proof. split; [split; [repeat constructor|split; reflexivity]|]. eexists. split; vm_compute; reflexivity. Qed.

(** ** C50: the options of -genben *)

Theorem C50_options os : Forall gen_option os ->
  exists c, dispatch (txt "-genben" :: List.concat (map gen_text os)) = Ok (if c_bool_finite c then GenBenFin c else GenBenBool c) /\
    c_num_var c = final (fun o => match o with GVar n => Some n | _ => None end) os (-1) /\
    c_num_clause c = final (fun o => match o with GClause n => Some n | _ => None end) os (-1) /\
    c_clause_size c = final (fun o => match o with GSize n => Some n | _ => None end) os 3 /\
    c_sat c = final (fun o => match o with GSat n => Some (negb (n =? 0)) | _ => None end) os true /\
    c_domain c = final (fun o => match o with GDomain n => Some n | _ => None end) os 10 /\
    c_drand c = final (fun o => match o with GDrand n => Some (negb (n =? 0)) | _ => None end) os false /\
    c_bool_finite c = final (fun o => match o with GBool n => Some (negb (n =? 0)) | _ => None end) os false /\
    c_file c = final (fun o => match o with GFile f => Some (Some f) | _ => None end) os None.
Proof.
  intro H. exists (fold_left gen_apply os default_cline). split; [apply gen_dispatch; auto|]. apply (gen_fields os default_cline).
Qed.
Print Assumptions C50_options.

Definition os_gen : list gen_opt := [GVar 3; GClause 3; GWord (txt "huh"); GSize 2; GDomain 9; GDomain 3; GBool 1; GFile (txt "f")].
Example C50_case : Forall gen_option os_gen /\
  exists r, main 0 (txt "-genben" :: List.concat (map gen_text os_gen))
              (a_machine (fun _ => None) [] [1; 2; 0; 0; 0; 1; 1; 7; 8; 8; 1; 1; 2; 2; 4]) = Ok r /\ status r = 0 /\
    after r (txt "f") = Some (unlines (map txt ["p cnf 3 3"; "d 1 3"; "d 2 3"; "d 3 3"; "1=1 2=1 0"; "2=2 3=2 0"; "2=2 3=2 0"]%string)).
Proof.
  split; [|eexists; split; [vm_compute; reflexivity|]; split; vm_compute; reflexivity].
  repeat constructor; try (vm_compute; congruence). intro Q. cbn in Q. repeat destruct Q as [Q|Q]; try discriminate; auto.
Qed.

(** If the file cannot be written: a message, but the status is 0. *)
Theorem C50_no_output fuel w args c f t : dispatch args = Ok (GenBenFin c) /\ gen_fin c (numbers_of w) = Ok t \/
    dispatch args = Ok (GenBenBool c) /\ gen_bool c (numbers_of w) = Ok t ->
  c_file c = Some f ->
  main fuel args w =
    Ok (if writable w f then mkRan title 0 (write_file (files_of w) f t)
        else mkRan (title ++ unlines [[]; txt "**** ERROR ****"; txt " Could not open output file to write "; txt "****       ****"; []]) 0 (files_of w)).
Proof.
  intros [(E & G)|(E & G)] F; unfold main; rewrite E; cbn [bind]; unfold run_generate; rewrite G; cbn [bind]; rewrite F, banner_title;
    destruct (writable w f); reflexivity.
Qed.
Print Assumptions C50_no_output.

Example C50_no_output_case :
  exists r, main 0 (txt "-genben" :: List.concat (map gen_text os_gen))
              (mkMachine (fun _ => None) (fun _ => false) [] [1; 2; 0; 0; 0; 1; 1; 7; 8; 8; 1; 1; 2; 2; 4] (fun _ => 0) [] [] [] [] true) = Ok r /\
    status r = 0 /\ after r (txt "f") = None.
Proof. eexists. split; [vm_compute; reflexivity|]. split; reflexivity. Qed.

(** ** C51: the menu *)

(** Whatever the command line, if the menu is shown then the run ends with status 1 and changes
    no file. *)
Theorem C51_status fuel args w r : dispatch args = Ok Help -> main fuel args w = Ok r -> status r = 1 /\ after r = files_of w.
Proof.
  intros Ed E. unfold main in E. rewrite Ed in E. cbn [bind] in E. destruct (print_help fuel (stdin_of w)); try discriminate.
  injection E as <-. split; reflexivity.
Qed.
Print Assumptions C51_status.

(** The pages chosen are shown in order until 0 is entered. *)
Theorem C51_pages args w ks rest fuel : dispatch args = Ok Help ->
  Forall choice ks -> (forall a r, rest = a :: r -> digit a = None) ->
  stdin_of w = entered ks ++ txt "0" ++ rest -> (length ks < fuel)%nat ->
  main fuel args w = Ok (mkRan (title ++ List.concat (map page (map (fun e => fst (fst e)) ks ++ [0]))) 1 (files_of w)).
Proof.
  intros Ed F S Ei L. unfold main. rewrite Ed. cbn [bind]. unfold print_help. rewrite Ei. change (txt "0") with (num 0).
  assert (SR : stops rest). { destruct rest as [|a r]; [exact I|]. cbn [stops]. unfold is_digit. rewrite (S a r eq_refl). reflexivity. }
  rewrite menu_reads by auto. cbn [bind]. rewrite banner_title. reflexivity.
Qed.
Print Assumptions C51_pages.

(** An input without a number leads to the exit. *)
Theorem C51_no_number args w fuel : dispatch args = Ok Help -> (forall z r, scan_int (skip_space (stdin_of w)) <> Some (z, r)) ->
  main (S fuel) args w = Ok (mkRan (title ++ page 0) 1 (files_of w)).
Proof. intros Ed H. unfold main. rewrite Ed. cbn [bind]. rewrite menu_not_number by auto. cbn [bind]. rewrite banner_title. reflexivity. Qed.
Print Assumptions C51_no_number.

(** So does anything that is not a number, after any choices. *)
Theorem C51_word args w ks u fuel : dispatch args = Ok Help -> Forall choice ks -> stdin_of w = entered ks ++ u ->
  (exists sp a r, u = sp ++ a :: r /\ Forall space_char sp /\ ~ space_char a /\ ~ a_digit a /\
     ((a = "+"%char \/ a = "-"%char) -> forall b r', r = b :: r' -> ~ a_digit b)) ->
  (length ks < fuel)%nat ->
  main fuel args w = Ok (mkRan (title ++ List.concat (map page (map (fun e => fst (fst e)) ks ++ [0]))) 1 (files_of w)).
Proof.
  intros Ed F Ei (sp & a & r & -> & S & A1 & A2 & A3) L. unfold main. rewrite Ed. cbn [bind]. unfold print_help. rewrite Ei.
  assert (E : skip_space (sp ++ a :: r) = a :: r) by (rewrite skip_sp, skip_none; auto).
  rewrite menu_word; [cbn [bind]; rewrite banner_title; reflexivity|exact F|rewrite E; discriminate| |exact L].
  rewrite E. intros z q Q.
  assert (D : forall b, ~ a_digit b -> digit b = None). { intros b N. destruct (digit b) eqn:G; auto. apply digit_is in G. contradiction. }
  destruct (ascii_dec a "+") as [->|N1]; [|destruct (ascii_dec a "-") as [->|N2]].
  - change (scan_nat r = Some (z, q)) in Q. destruct r as [|b r']; [discriminate|]. cbn [scan_nat] in Q.
    rewrite D in Q; [discriminate|]. apply (A3 (or_introl eq_refl) b r' eq_refl).
  - change (match scan_nat r with Some (z, r) => Some (- z, r) | None => None end = Some (z, q)) in Q. destruct r as [|b r']; [discriminate|]. cbn [scan_nat] in Q.
    rewrite D in Q; [discriminate|]. apply (A3 (or_intror eq_refl) b r' eq_refl).
  - rewrite scan_signed in Q by auto. cbn [scan_nat] in Q. rewrite D in Q; [discriminate|auto].
Qed.
Print Assumptions C51_word.

Example C51_word_case : exists r, main 9 [] (a_machine (fun _ => None) (txt "5" ++ [LF; LF] ++ txt "quit" ++ [LF]) []) = Ok r /\
  screen r = title ++ page 5 ++ page 0 /\ status r = 1.
Proof. eexists. split; [vm_compute; reflexivity|]. split; vm_compute; reflexivity. Qed.

(** If the input ends after a choice then the program prints the same page for ever. *)
Theorem C51_endless args w ks b fuel : dispatch args = Ok Help -> Forall choice ks -> ks <> [] ->
  (forall a, In a b -> isspace a = true) -> stdin_of w = entered ks ++ b -> main fuel args w = OutOfFuel.
Proof. intros Ed F N B Ei. unfold main. rewrite Ed. cbn [bind]. unfold print_help. rewrite Ei, menu_endless by auto. reflexivity. Qed.
Print Assumptions C51_endless.

Theorem C51_ends_refuted : exists w, forall fuel, main fuel [] w = OutOfFuel.
Proof.
  exists (a_machine (fun _ => None) (txt "1" ++ [LF; LF]) []). intro fuel.
  apply (C51_endless [] _ [(1, LF, LF)] []); try reflexivity; try discriminate.
  - repeat constructor; vm_compute; congruence.
  - intros a [].
Qed.
Print Assumptions C51_ends_refuted.

Example C51_case : exists r, main 9 (map txt ["-help"]%string) (a_machine (fun _ => None) (txt "5" ++ [LF; LF] ++ txt "-7" ++ [LF; LF] ++ txt "0" ++ [LF]) []) = Ok r /\
  screen r = title ++ menu_text ++ LF :: menu_5 ++ menu_text ++ LF :: menu_text ++ LF :: menu_0.
Proof. eexists. split; vm_compute; reflexivity. Qed.

(** ** C52: files *)

(** A run that terminates changes at most one file: the one named by -model, for the
    converters, or by -file, for -genben; and only if it ends with status 0. *)
Theorem C52_files fuel args w r h : main fuel args w = Ok r -> after r h <> files_of w h ->
  status r = 0 /\ writable w h = true /\
  ((exists a x y, args = a :: x ++ txt "-model" :: h :: y /\ (a = txt "-b2f" \/ a = txt "-linenc" \/ a = txt "-quadenc")) \/
   (exists x y, args = txt "-genben" :: x ++ txt "-file" :: h :: y)).
Proof. apply files_kept. Qed.
Print Assumptions C52_files.

Theorem C52_one_file fuel args w r h h' : main fuel args w = Ok r -> after r h <> files_of w h -> after r h' <> files_of w h' -> h = h'.
Proof. apply files_one. Qed.
Print Assumptions C52_one_file.

(** ** C53: programs run one after the other *)

(** -linenc, then -b2f, then any solver: the answer is right for the problem that was encoded. *)
Theorem C53_linear_finite_solve w1 w2 w3 os1 os2 args c m f g h t p :
  names os1 f g -> names os2 g h -> dispatch args = Ok (SolveFinite c m) -> c_file c = Some h -> f <> g -> g <> h ->
  0 <= c_clause_size c -> missing_return w3 = true -> writable w1 g = true -> writable w2 h = true ->
  wf p -> clauses p <> [] -> (forall d, In d (doms p) -> 3 <= d) -> (m = NonChrono -> no_repeats p) ->
  4 * zsum (doms p) + Z.of_nat (length (clauses p)) <= int_max -> documented_as (txt "cnf") p t -> lines_below 3000 t ->
  files_of w1 f = Some t ->
  exists r1 t1, (forall fuel, main fuel (txt "-linenc" :: args_of os1) w1 = Ok r1) /\ after r1 g = Some t1 /\
    (lines_below 1500 t1 -> files_of w2 = after r1 ->
     exists r2, (forall fuel, main fuel (txt "-b2f" :: args_of os2) w2 = Ok r2) /\
       (files_of w3 = after r2 ->
        exists N r3 v, (forall fuel, (N <= fuel)%nat -> main fuel args w3 = Ok r3) /\ shows r3 v /\ answers p (late_at w3 (c_time c)) v)).
Proof. apply pipe_linear. Qed.
Print Assumptions C53_linear_finite_solve.

(** -b2f, then any solver. *)
Theorem C53_finite_solve w1 w2 os args c m f g t n fm :
  names os f g -> dispatch args = Ok (SolveFinite c m) -> c_file c = Some g -> f <> g ->
  0 <= c_clause_size c -> missing_return w2 = true -> writable w1 g = true ->
  bool_cnf n fm -> fm <> [] -> 0 <= n <= int_max -> Z.of_nat (length fm) <= int_max -> (m = NonChrono -> forall c, In c fm -> NoDup c) ->
  bool_file n fm t -> lines_below 1500 t -> files_of w1 f = Some t ->
  exists r1, (forall fuel, main fuel (txt "-b2f" :: args_of os) w1 = Ok r1) /\
    (files_of w2 = after r1 ->
     exists N r2 v, (forall fuel, (N <= fuel)%nat -> main fuel args w2 = Ok r2) /\ shows r2 v /\
       (v = txt "SAT" /\ (exists b, cnf_holds b fm) \/ v = txt "UNSAT" /\ (forall b, ~ cnf_holds b fm) \/
        v = txt "TIMEOUT" /\ exists k, late_at w2 (c_time c) k = true)).
Proof. apply pipe_finite. Qed.
Print Assumptions C53_finite_solve.

(** -genben -bool 1 -sat 1, then any solver: the answer is never UNSAT. *)
Theorem C53_generate_solve w1 w2 args1 args c1 c m f fuel1 r1 :
  dispatch args1 = Ok (GenBenFin c1) -> c_file c1 = Some f -> dispatch args = Ok (SolveFinite c m) -> c_file c = Some f ->
  0 <= c_clause_size c -> missing_return w2 = true -> writable w1 f = true -> (forall x, In x (numbers_of w1) -> 0 <= x) ->
  c_sat c1 = true -> c_drand c1 = false -> 2 <= c_domain c1 <= int_max -> 1 <= c_clause_size c1 <= 136 ->
  c_num_var c1 <= int_max -> c_num_clause c1 <= int_max ->
  main fuel1 args1 w1 = Ok r1 -> files_of w2 = after r1 ->
  exists N r2 v, (forall fuel, (N <= fuel)%nat -> main fuel args w2 = Ok r2) /\ shows r2 v /\
    (v = txt "SAT" \/ v = txt "TIMEOUT" /\ exists k, late_at w2 (c_time c) k = true).
Proof. apply pipe_generate. Qed.
Print Assumptions C53_generate_solve.

(** Three runs in a row. *)
Definition p_three : problem :=
  mkProblem [3; 4] [[mkLit 1 0 true; mkLit 2 3 false]; [mkLit 1 0 false]; [mkLit 2 3 true; mkLit 1 1 true]; [mkLit 1 1 false; mkLit 2 3 true]].
Definition os_1 : list opt := [OFile (txt "f"); OModelFile (txt "g")].
Definition os_2 : list opt := [OModelFile (txt "h"); OFile (txt "g")].
Definition chain : outcome (text * Z) :=
  let* r1 := main 0 (txt "-linenc" :: args_of os_1) (a_machine (two_files (txt "f") (layout p_three) [] []) [] []) in
  let* r2 := main 0 (txt "-b2f" :: args_of os_2) (a_machine (after r1) [] []) in
  let* r3 := main 300 (map txt ["-solvenc"; "-file"; "h"]%string) (a_machine (after r2) [] []) in
  Ok (screen r3, status r3).
Example C53_case :
  (names os_1 (txt "f") (txt "g") /\ names os_2 (txt "g") (txt "h")) /\
  (wf p_three /\ no_repeats p_three /\ (forall d, In d (doms p_three) -> 3 <= d)) /\
  chain = Ok (solver_screen (txt "h") (txt "0.1") (txt "0.2") (txt "0.3") [] (answer_lines (txt "UNSAT") 0 3 0 0 12 24 0), 0).
Proof.
  split; [split; (split; [repeat constructor|split; reflexivity])|].
  split; [split; [apply wf_dec; reflexivity|]; split; [apply no_repeats_dec; reflexivity|intros d [<-|[<-|[]]]; lia]|].
  vm_compute. reflexivity.
Qed.

(** With a two-valued variable the header of the encoding is wrong, and the answer of the
    solver fails its own check. *)
Theorem C53_two_valued_refuted :
  exists p t t1 t2, wf p /\ clauses p <> [] /\ two_valued_positive p /\ no_repeats p /\ documented_as (txt "cnf") p t /\ lines_below 3000 t /\
    linear_encode t = Ok t1 /\ boolean2finite t1 = Ok t2 /\
    verdict_of (solve_file 200 NonChrono (wl BK) never 0 t2) = Some (SAT, 0, Some false).
Proof.
  exists p_enc, f_enc. eexists _, _. destruct enc_fine as (W & NC & TV & D & LB & _).
  do 3 (split; [assumption|]). split; [apply no_repeats_dec; reflexivity|]. do 2 (split; [assumption|]).
  split; [vm_compute; reflexivity|]. split; [vm_compute; reflexivity|]. vm_compute; reflexivity.
Qed.
Print Assumptions C53_two_valued_refuted.
