(** * Facts about the program of the first version *)

From Coq Require Import Ascii String.
From Verif Require Import Spec Outcome State ModelSearch ModelBuild Base TextSpec ModelText ModelRead Text Read
  CliSpec ModelCli Cli ModelEncode ModelB2f ModelGen ModelMenu ModelMain MainSpec MainFacts MainMore
  ModelOrig OrigSpec OrigMono OrigBound ModelOrigMain OrigMainSpec BitMainFacts.
#[local] Open Scope char_scope.
#[local] Open Scope Z_scope.

(** ** Reading *)

Lemma some_not_p g l g' i : read_line g l = Ok (g', Some i) -> forall A (x y : A), match cstr l with "p" :: _ => x | _ => y end = y.
Proof.
  intros E A x y. unfold read_line in E. destruct (cstr l) as [|a b] eqn:C; [reflexivity|].
  destruct (Ascii.eqb_spec a "p") as [->|N].
  - change (bind (sscanf fmt_p ("p" :: b) g) (fun g => Ok (g, None)) = Ok (g', Some i)) in E. apply bind_ok in E.
    destruct E as (? & _ & E). discriminate E.
  - destruct a as [[] [] [] [] [] [] [] []]; try reflexivity. congruence.
Qed.

Lemma read_headed : forall ls n m, int_ok n -> int_ok m ->
  (forall l, In l ls -> is_problem l = true -> words l = [txt "p"; txt "cnf"; TextSpec.num n; TextSpec.num m]) ->
  forall is, Forall2 reads (filter (fun l => negb (is_comment l || is_problem l)) ls) is -> forall g o,
  o_read n m g o ls = let* o := foldM o_add_item is o in Ok (Some o).
Proof.
  intros ls n m Hn Hm. induction ls as [|l ls IH]; intros HP is F g o; [inversion F; reflexivity|].
  assert (HP' : forall l, In l ls -> is_problem l = true -> words l = [txt "p"; txt "cnf"; TextSpec.num n; TextSpec.num m]) by (intros; apply HP; [right|]; auto).
  cbn [filter] in F. destruct (is_comment l) eqn:Ec; [|destruct (is_problem l) eqn:Ep].
  - cbn [orb negb] in F. destruct l as [|a l]; [discriminate|]. apply Ascii.eqb_eq in Ec. subst a.
    cbn [o_read]. unfold read_line. cbn [cstr]. change (Ascii.eqb "c" NUL) with false. cbn iota. cbn [bind]. apply (IH HP' is F).
  - cbn [orb negb] in F. pose proof (HP l (or_introl eq_refl) Ep) as W.
    destruct l as [|a l]; [discriminate|]. apply Ascii.eqb_eq in Ep. subst a.
    destruct (scan_header_line g n m ("p" :: l)) as (N & _ & E); auto; [eexists; reflexivity|].
    cbn [o_read]. unfold read_line. rewrite cstr_id by auto. rewrite E. cbn [bind]. unfold o_header. cbn [g_var g_val get bind].
    rewrite !Z.eqb_refl. cbn [negb bind]. apply (IH HP' is F).
  - cbn [orb negb] in F. inversion F as [|? i ? is' H HH]; subst. destruct (H g) as (g' & E).
    cbn [o_read]. rewrite E. cbn [bind]. rewrite (some_not_p _ _ _ _ E). cbn [bind foldM].
    destruct (o_add_item o i) as [o1| |]; cbn [bind]; auto.
Qed.

Lemma read_announced p t n m o : wf p -> fits_int p -> accepted p t -> lines_below 3000 t -> int_ok n -> int_ok m -> announces t n m ->
  o_read n m no_regs o (getlines [] t) = let* o := foldM o_add_item (items_of p) o in Ok (Some o).
Proof.
  intros W (F1 & F2 & F3) (ls & ds & cs & HL & HP & FL & HD & HC) LB Hn Hm A.
  rewrite (getlines_has t ls HL (LB ls HL)). apply read_headed; auto; [intros; eapply A; eauto|]. rewrite FL.
  pose proof W as (W1 & _). apply Forall2_app.
  - apply (domain_lines_reads _ 1); auto; [lia|unfold nvars in F1; lia|].
    intros d Hd. pose proof (W1 d Hd). pose proof (F3 d Hd). unfold int_ok. lia.
  - apply (clause_lines_reads p); auto. apply incl_refl.
Qed.

(** Comments before the first other line. *)
Lemma read_comments n m o : forall ls hd rest, filter (fun l => negb (is_comment l)) ls = hd :: rest ->
  exists ls', o_read n m no_regs o ls = o_read n m no_regs o (hd :: ls').
Proof.
  induction ls as [|l ls IH]; intros hd rest E; [discriminate|]. cbn [filter] in E. destruct (is_comment l) eqn:Ec; cbn [negb] in E.
  - destruct (IH _ _ E) as (ls' & R). exists ls'. rewrite <- R. destruct l as [|a l]; [discriminate|]. apply Ascii.eqb_eq in Ec. subst a.
    cbn [o_read]. unfold read_line. cbn [cstr]. change (Ascii.eqb "c" NUL) with false. reflexivity.
  - injection E as -> E. eauto.
Qed.

Lemma read_mismatch p t n m o : fits_int p -> documented_as (txt "cnf") p t -> lines_below 3000 t ->
  n <> nvars p \/ m <> Z.of_nat (length (clauses p)) ->
  o_read n m no_regs o (getlines [] t) = Ok None.
Proof.
  intros (F1 & F2 & _) (ls & hd & ds & cs & HL & FL & (S & HH) & _) LB N.
  rewrite (getlines_has t ls HL (LB ls HL)). destruct (read_comments n m o _ _ _ FL) as (ls' & ->).
  destruct (scan_header_line no_regs (nvars p) (Z.of_nat (length (clauses p))) hd) as (NN & (r & ->) & E); auto;
    try (unfold int_ok, nvars in *; lia).
  cbn [o_read]. unfold read_line. rewrite cstr_id by auto. rewrite E. cbn [bind]. unfold o_header. cbn [g_var g_val get bind].
  destruct (Z.eqb_spec (nvars p) n); cbn [negb bind]; auto.
  destruct (Z.eqb_spec (Z.of_nat (length (clauses p))) m); cbn [negb bind]; auto. lia.
Qed.

Lemma read_mvcnf p t n m o : documented_as (txt "mvcnf") p t -> lines_below 3000 t ->
  o_read n m no_regs o (getlines [] t) = Undef Uninit.
Proof.
  intros (ls & hd & ds & cs & HL & FL & (S & HH) & _) LB.
  rewrite (getlines_has t ls HL (LB ls HL)). destruct (read_comments n m o _ _ _ FL) as (ls' & ->).
  destruct (scan_other_header no_regs (nvars p) (Z.of_nat (length (clauses p))) hd) as (NN & (r & ->) & E); auto.
  cbn [o_read]. unfold read_line. rewrite cstr_id by auto. rewrite E. reflexivity.
Qed.

(** ** The command line *)

Definition orig_apply (c : cline) (o : opt) : cline :=
  match o with
  | OFile f => with_file (Some f) c
  | OModelFile f => with_model_file (Some f) c
  | OTime n => with_time n c
  | OVar n => with_var n c
  | OClause n => with_clause n c
  | OClauseSize n => with_clause_size n c
  | OWord w => if text_eqb w (txt "-bool") then with_bool 0 c else c
  | _ => c
  end.

Lemma orig_step o rest c : orig_option o ->
  parse_loop tb_orig (opt_text o ++ rest) c = parse_loop tb_orig rest (orig_apply c o).
Proof.
  intro H. destruct o; cbn [opt_text app orig_option] in *; try reflexivity; try (destruct H; fail).
  all: try (cbn; rewrite atoi_num by (apply an_int_in; exact H); reflexivity).
  cbn [parse_loop orig_apply]. destruct (text_eqb_spec w (txt "-bool")) as [->|N]; [reflexivity|].
  rewrite lookup_none; auto. intro Q. cbn in Q, N. apply H. cbn. repeat destruct Q as [Q|Q]; auto 10; congruence.
Qed.

Lemma orig_parse : forall os c, Forall orig_option os -> parse_loop tb_orig (args_of os) c = Ok (fold_left orig_apply os c).
Proof.
  induction os as [|o os IH]; intros c H; [reflexivity|]. inversion H; subst. unfold args_of. simpl map. cbn [List.concat].
  rewrite orig_step by auto. apply IH. auto.
Qed.

Lemma orig_fields : forall os c, let r := fold_left orig_apply os c in
  c_file r = latest sel_file os (c_file c) /\ c_num_var r = latest sel_var os (c_num_var c) /\
  c_num_clause r = latest sel_clause os (c_num_clause c) /\ c_clause_size r = latest sel_size os (c_clause_size c) /\
  c_time r = latest sel_time os (c_time c).
Proof.
  induction os as [|o os IH]; intros c r.
  - unfold r. simpl. repeat split.
  - unfold r. cbn [fold_left latest]. destruct (IH (orig_apply c o)) as (E1 & E2 & E3 & E4 & E5).
    rewrite E1, E2, E3, E4, E5. destruct o; cbn; repeat split; auto. all: destruct (text_eqb w _); reflexivity.
Qed.

Lemma latest_int sel os d : (forall o n, orig_option o -> sel o = Some n -> an_int n) -> an_int d -> Forall orig_option os -> an_int (latest sel os d).
Proof.
  intro S. revert d. induction os as [|o os IH]; intros d D H; auto. inversion H; subst. cbn [latest]. apply IH; auto.
  destruct (sel o) eqn:E; eauto.
Qed.

(** The word of the command line. *)
Definition mode_word (m : mode) : text := match m with Chrono => txt "-solvech" | NonChrono => txt "-solvenc" end.

Lemma latest_file : forall os f0, exists f, latest sel_file os (Some f0) = Some f.
Proof.
  induction os as [|o os IH]; intro f0; cbn [latest]; [eauto|]. destruct (sel_file o) as [[f|]|] eqn:E; auto.
  destruct o; discriminate.
Qed.

Lemma orig_dispatch os m : Forall orig_option os ->
  let c := fold_left orig_apply os o_default in
  o_dispatch (mode_word m :: args_of os) = let* b := o_missing true c in Ok (if b then None else Some (SolveFinite c m)).
Proof. intros H c. destruct m; unfold o_dispatch; cbn [mode_word text_eqb txt list_ascii_of_string Ascii.eqb Bool.eqb andb]; rewrite orig_parse by auto; reflexivity. Qed.

Lemma orig_complete os m : Forall orig_option os -> complete os ->
  o_dispatch (mode_word m :: args_of os) = Ok (Some (SolveFinite (fold_left orig_apply os o_default) m)).
Proof.
  intros H (C1 & C2 & C3 & C4). rewrite orig_dispatch by auto. destruct (orig_fields os o_default) as (E1 & E2 & E3 & E4 & _).
  unfold o_missing. rewrite E1, E2, E3, E4. cbn [c_file c_num_var c_num_clause c_clause_size o_default].
  rewrite (proj2 (Z.eqb_neq _ _) C1), (proj2 (Z.eqb_neq _ _) C2), (proj2 (Z.eqb_neq _ _) C3). cbn [orb andb].
  destruct (latest_file os (txt "die")) as (f & Ef). unfold the_file in C4. rewrite Ef in *. cbn [bind].
  destruct (text_eqb_spec f (txt "die")) as [->|]; [congruence|reflexivity].
Qed.

Lemma orig_incomplete os m : Forall orig_option os -> ~ complete os -> o_dispatch (mode_word m :: args_of os) = Ok None.
Proof.
  intros H C. rewrite orig_dispatch by auto. destruct (orig_fields os o_default) as (E1 & E2 & E3 & E4 & _).
  unfold o_missing. rewrite E1, E2, E3, E4. cbn [c_file c_num_var c_num_clause c_clause_size o_default].
  destruct (Z.eqb_spec (latest sel_var os (-1)) (-1)); [reflexivity|].
  destruct (Z.eqb_spec (latest sel_clause os (-1)) (-1)); [reflexivity|].
  destruct (Z.eqb_spec (latest sel_size os 3) (-1)); [reflexivity|]. cbn [orb andb].
  destruct (latest_file os (txt "die")) as (f & Ef). rewrite Ef. cbn [bind].
  destruct (text_eqb_spec f (txt "die")) as [->|N]; [reflexivity|]. destruct C. unfold complete, the_file. rewrite Ef.
  repeat split; auto. congruence.
Qed.

Lemma reserve_fits c : 0 <= c_num_var c < 2147483647 -> 0 <= c_clause_size c <= 1789569706 -> o_reserve c = Ok tt.
Proof.
  intros H1 H2. unfold o_reserve. destruct (Z.eqb_spec (c_num_var c) 2147483647); [lia|].
  destruct (Z.ltb_spec (c_num_var c) (-1)); [lia|]. destruct (Z.ltb_spec 1789569706 (c_clause_size c)); [lia|].
  destruct (Z.ltb_spec (c_clause_size c) 0); [lia|]. reflexivity.
Qed.

(** ** What is printed *)

Definition o_note_lines (rep : oreport) : list text := if or_message rep then [txt "No Branch Atom selected"] else [].
Definition o_rest (rep : oreport) : list text := match or_verified rep with Some ok => checked_lines ok | None => [] end.

Lemma report_lines rep :
  o_report rep = unlines (orig_answer (word (or_verdict rep)) (or_decisions rep) (or_units rep) (or_backtracks rep)
     (or_entails rep) (or_level rep) (or_variables rep) (or_clauses rep) ++ o_rest rep).
Proof.
  unfold o_report, o_info, orig_answer, o_rest.
  assert (W : (match or_verdict rep return list ascii with SAT => say ["SAT"] | TIMEOUT => say ["TIMEOUT"] | UNSAT => say ["UNSAT"] end)%string =
              word (or_verdict rep) ++ [LF]) by (destruct (or_verdict rep); reflexivity).
  rewrite W, unlines_app, !unlines_cons. change (unlines []) with (@nil ascii).
  repeat (rewrite <- ?app_assoc; cbn [app]; f_equal).
  destruct (or_verified rep) as [[]|]; reflexivity.
Qed.

Definition o_screen_of (w : machine) (f : text) (rep : oreport) : text :=
  orig_screen f (time1 w) (time2 w) (time3 w) (o_note_lines rep)
    (orig_answer (word (or_verdict rep)) (or_decisions rep) (or_units rep) (or_backtracks rep)
       (or_entails rep) (or_level rep) (or_variables rep) (or_clauses rep) ++ o_rest rep).

(** ** Whole runs *)

Lemma run_of fuel e m os w f t p :
  Forall orig_option os -> complete os -> sizes_fit os -> the_file os = Some f -> files_of w f = Some t ->
  wf p -> fits_int p -> accepted p t -> lines_below 3000 t -> announces t (latest sel_var os (-1)) (latest sel_clause os (-1)) ->
  0 <= latest sel_clause os (-1) ->
  o_main fuel e (mode_word m :: args_of os) w =
  let* rep := o_solve fuel m e (late_at w (latest sel_time os 3600)) p in Ok (mkRan (o_screen_of w f rep) 0 (files_of w)).
Proof.
  intros H C (S1 & S2) Ef Et W F A L N M. unfold o_main. rewrite orig_complete by auto. cbn [bind].
  destruct (orig_fields os o_default) as (E1 & E2 & E3 & E4 & E5). cbn [c_file c_num_var c_num_clause c_clause_size c_time o_default] in *.
  set (c := fold_left orig_apply os o_default) in *. unfold o_run. unfold the_file in Ef. rewrite E1, Ef.
  rewrite reserve_fits by (rewrite ?E2, ?E4; auto). cbn [bind]. rewrite Et, E2, E3, E5.
  assert (I : an_int (latest sel_clause os (-1))).
  { apply latest_int; auto; [|unfold an_int; lia]. intros [] k O Q; cbn in *; congruence. }
  rewrite (read_announced p t _ _ _ W F A L); auto; try (unfold int_ok, int_max, an_int in *; lia).
  unfold o_solve, o_build. destruct (foldM o_add_item (items_of p) (o_init e)) as [o| |]; cbn [bind]; auto.
  destruct (o_search _ _ _ _) as [q| |]; cbn [bind]; auto. destruct (o_finish q) as [rep| |]; cbn [bind]; auto.
  do 2 f_equal. unfold o_screen_of, orig_screen. rewrite report_lines.
  assert (EN : o_note rep = unlines (o_note_lines rep)) by (unfold o_note, o_note_lines; destruct (or_message rep); reflexivity).
  rewrite EN. reflexivity.
Qed.

Lemma right_of fuel e m clk p rep : wf p -> o_solve fuel m e clk p = Ok rep ->
  orig_right p (match m with Chrono => false | NonChrono => true end) clk (or_decisions rep) (or_backtracks rep)
    (word (or_verdict rep)) (o_note_lines rep) (o_rest rep).
Proof.
  intros W E. destruct m.
  - destruct (chrono_rep fuel e clk p rep W E) as (S & V & T & U & _ & Q & _).
    destruct (chrono_counts fuel e clk p rep W E) as (CM & C0 & C1 & C2).
    pose proof (chrono_right fuel e clk p rep W E) as R. unfold o_rest, o_note_lines.
    destruct (or_verdict rep) eqn:D; cbn [word].
    + destruct (S eq_refl) as (b & B1 & B2 & B3). rewrite B1. destruct (or_message rep) eqn:MM.
      * apply ONote; auto. apply Z.lt_nge. intro LL. destruct (R LL). congruence.
      * rewrite (B3 eq_refl). apply OSat. auto.
    + assert (MM : or_message rep = false) by (destruct (or_message rep); auto; destruct (CM eq_refl); congruence). rewrite MM. rewrite V by congruence. destruct (T eq_refl) as (k & K). apply (OTimeout _ _ _ _ _ k K).
    + assert (MM : or_message rep = false) by (destruct (or_message rep); auto; destruct (CM eq_refl); congruence). rewrite MM. rewrite V by congruence. apply OUnsat; auto.
  - destruct (nc_other fuel e clk p rep W E) as (U & T & V & MM & _). unfold o_rest, o_note_lines. rewrite MM.
    destruct (or_verdict rep) eqn:D; cbn [word].
    + destruct (nc_sat fuel e clk p rep W E D) as (B & S). rewrite B. apply OSat. auto.
    + rewrite V by congruence. destruct (T eq_refl) as (k & K). apply (OTimeout _ _ _ _ _ k K).
    + rewrite V by congruence. apply OUnsat; auto. discriminate.
Qed.

Theorem omain_program fuel e m os w f t p r :
  Forall orig_option os -> complete os -> sizes_fit os -> the_file os = Some f -> files_of w f = Some t ->
  wf p -> fits_int p -> accepted p t -> lines_below 3000 t -> announces t (latest sel_var os (-1)) (latest sel_clause os (-1)) ->
  0 <= latest sel_clause os (-1) ->
  o_main fuel e (mode_word m :: args_of os) w = Ok r ->
  exists v note rest d u b n l k,
    r = mkRan (orig_screen f (time1 w) (time2 w) (time3 w) note (orig_answer v d u b n l (nvars p) k ++ rest)) 0 (files_of w) /\
    orig_right p (match m with Chrono => false | NonChrono => true end) (late_at w (latest sel_time os 3600)) d b v note rest /\
    k = Z.of_nat (length (clauses p)) + match m with Chrono => 0 | NonChrono => b end.
Proof.
  intros H C S Ef Et W F A L N M R. rewrite (run_of fuel e m os w f t p) in R; auto. apply bind_ok in R. destruct R as (rep & R & Q).
  injection Q as <-. pose proof (right_of _ _ _ _ _ _ W R) as RR.
  assert (SZ : or_variables rep = nvars p /\ or_clauses rep = Z.of_nat (length (clauses p)) + match m with Chrono => 0 | NonChrono => or_backtracks rep end).
  { destruct m.
    - destruct (chrono_rep _ _ _ _ _ W R) as (_ & _ & _ & _ & _ & _ & V1 & V2). split; [auto|lia].
    - destruct (nc_other _ _ _ _ _ W R) as (_ & _ & _ & _ & V1 & V2 & _). auto. }
  destruct SZ as (V1 & V2). do 9 eexists. split; [|split; [exact RR|exact V2]]. unfold o_screen_of. rewrite V1. reflexivity.
Qed.

Theorem omain_ends m os w f t p :
  Forall orig_option os -> complete os -> sizes_fit os -> the_file os = Some f -> files_of w f = Some t ->
  wf p -> fits_int p -> accepted p t -> lines_below 3000 t -> announces t (latest sel_var os (-1)) (latest sel_clause os (-1)) ->
  0 <= latest sel_clause os (-1) ->
  m = Chrono \/ (4 * atoms p + 3) * (literals p + atoms p) <= 1000000000 \/ (exists K, forall k, (K <= k)%nat -> late_at w (latest sel_time os 3600) k = true) ->
  forall e, exists N, forall fuel, (N <= fuel)%nat ->
    match o_main fuel e (mode_word m :: args_of os) w with
    | Ok r => True
    | Undef u => u = Uninit \/ u = BadPtr \/ m = NonChrono /\ u = OobStack
    | OutOfFuel => False
    end.
Proof.
  intros H C S Ef Et W F A L N M [->|Q] e.
  - destruct (chrono_ends (late_at w (latest sel_time os 3600)) p W) as (K & rep & E). exists K. intros fuel Hf.
    rewrite (run_of fuel e Chrono os w f t p) by auto. destruct (E fuel e Hf) as [->|[->| ->]]; cbn [bind]; auto.
  - destruct m.
    + destruct (chrono_ends (late_at w (latest sel_time os 3600)) p W) as (K & rep & E). exists K. intros fuel Hf.
      rewrite (run_of fuel e Chrono os w f t p) by auto. destruct (E fuel e Hf) as [->|[->| ->]]; cbn [bind]; auto.
    + destruct (nc_ends e (late_at w (latest sel_time os 3600)) p W) as (K & E); [tauto|]. exists K. intros fuel Hf. specialize (E fuel Hf).
      rewrite (run_of fuel e NonChrono os w f t p) by auto. pose proof (nc_outcome fuel e (late_at w (latest sel_time os 3600)) p W) as O.
      destruct (o_solve fuel NonChrono e (late_at w (latest sel_time os 3600)) p) as [x|u|]; cbn [bind]; [auto| |congruence]. intuition.
Qed.

(** ** Errors *)

Lemma obanner_title : o_banner = orig_title.
Proof. reflexivity. Qed.

Lemma omain_incomplete fuel e m os w : Forall orig_option os -> ~ complete os ->
  o_main fuel e (mode_word m :: args_of os) w =
  Ok (mkRan incorrect_screen 1 (files_of w)).
Proof. intros H C. unfold o_main. rewrite orig_incomplete by auto. reflexivity. Qed.

Lemma run_open fuel e m os w f : Forall orig_option os -> complete os -> sizes_fit os -> the_file os = Some f ->
  exists c, c_num_var c = latest sel_var os (-1) /\ c_num_clause c = latest sel_clause os (-1) /\
  o_main fuel e (mode_word m :: args_of os) w =
      match files_of w f with
      | None => Ok (mkRan (o_banner ++ no_input) 1 (files_of w))
      | Some t =>
          let* q := o_read (c_num_var c) (c_num_clause c) no_regs (o_init e) (getlines [] t) in
          match q with
          | None => Ok (mkRan (o_banner ++ o_mismatch) 1 (files_of w))
          | Some o =>
              let* q := o_search fuel m (late_at w (c_time c)) (o_check_unit o) in
              let* rep := o_finish q in
              Ok (mkRan (o_banner ++ f ++ txt " " ++ TAB :: time1 w ++ TAB :: o_note rep ++
                         time2 w ++ TAB :: txt " " ++ time3 w ++ TAB :: o_report rep) 0 (files_of w))
          end
      end.
Proof.
  intros H C (S1 & S2) Ef. unfold o_main. rewrite orig_complete by auto. cbn [bind].
  destruct (orig_fields os o_default) as (E1 & E2 & E3 & E4 & E5). cbn [c_file c_num_var c_num_clause c_clause_size c_time o_default] in *.
  set (c := fold_left orig_apply os o_default) in *. exists c. split; auto. split; auto. unfold o_run. unfold the_file in Ef. rewrite E1, Ef.
  rewrite reserve_fits by (rewrite ?E2, ?E4; auto). reflexivity.
Qed.

Lemma omain_no_file fuel e m os w f : Forall orig_option os -> complete os -> sizes_fit os -> the_file os = Some f -> files_of w f = None ->
  o_main fuel e (mode_word m :: args_of os) w =
  Ok (mkRan (orig_title ++ unlines (error_lines (txt "Could not open input file : "))) 1 (files_of w)).
Proof. intros H C S Ef Et. destruct (run_open fuel e m os w f) as (c & _ & _ & ->); auto. rewrite Et. reflexivity. Qed.

Lemma omain_mismatch fuel e m os w f t p : Forall orig_option os -> complete os -> sizes_fit os -> the_file os = Some f -> files_of w f = Some t ->
  fits_int p -> documented_as (txt "cnf") p t -> lines_below 3000 t ->
  latest sel_var os (-1) <> nvars p \/ latest sel_clause os (-1) <> Z.of_nat (length (clauses p)) ->
  o_main fuel e (mode_word m :: args_of os) w =
  Ok (mkRan mismatch_screen 1 (files_of w)).
Proof.
  intros H C S Ef Et F D L N. destruct (run_open fuel e m os w f) as (c & E1 & E2 & ->); auto.
  rewrite Et, (read_mismatch p) by (auto; rewrite E1, E2; auto). reflexivity.
Qed.

Lemma omain_mvcnf fuel e m os w f t p : Forall orig_option os -> complete os -> sizes_fit os -> the_file os = Some f -> files_of w f = Some t ->
  documented_as (txt "mvcnf") p t -> lines_below 3000 t ->
  o_main fuel e (mode_word m :: args_of os) w = Undef Uninit.
Proof.
  intros H C S Ef Et D L. destruct (run_open fuel e m os w f) as (c & E1 & E2 & ->); auto.
  rewrite Et, (read_mvcnf p) by auto. reflexivity.
Qed.

Lemma omain_sizes fuel e m os w : Forall orig_option os -> complete os -> ~ sizes_fit os ->
  o_main fuel e (mode_word m :: args_of os) w = Undef BadAlloc \/ o_main fuel e (mode_word m :: args_of os) w = Undef Overflow.
Proof.
  intros H C NS. pose proof C as (C1 & _ & C3 & _). unfold o_main. rewrite orig_complete by auto. cbn [bind].
  destruct (orig_fields os o_default) as (E1 & E2 & E3 & E4 & E5). cbn [c_file c_num_var c_num_clause c_clause_size c_time o_default] in *.
  set (c := fold_left orig_apply os o_default) in *. unfold o_run. rewrite E1. destruct (latest_file os (txt "die")) as (f & ->).
  assert (V : an_int (latest sel_var os (-1))) by (apply latest_int; auto; [intros [] k O Q; cbn in *; congruence|unfold an_int; lia]).
  unfold an_int in V. unfold sizes_fit in NS. rewrite <- E2, <- E4 in *. unfold o_reserve.
  destruct (Z.eqb_spec (c_num_var c) 2147483647); [auto|].
  destruct (Z.ltb_spec (c_num_var c) (-1)); [auto|]. destruct (Z.ltb_spec 1789569706 (c_clause_size c)); [auto|].
  destruct (Z.ltb_spec (c_clause_size c) 0); [auto|]. lia.
Qed.

(** ** The rest of the program *)

(** The two command lines agree, except for the names of files that are not given. *)
Definition same_name (a b : option text) : Prop := a = b \/ a = None /\ b = Some (txt "die").
Definition alike (c1 c2 : cline) : Prop :=
  c_num_var c1 = c_num_var c2 /\ c_num_clause c1 = c_num_clause c2 /\ c_clause_size c1 = c_clause_size c2 /\
  c_sat c1 = c_sat c2 /\ c_domain c1 = c_domain c2 /\ c_drand c1 = c_drand c2 /\ c_bool_finite c1 = c_bool_finite c2 /\
  same_name (c_file c1) (c_file c2) /\ same_name (c_model_file c1) (c_model_file c2).
Definition alike_effect (e : effect) : Prop :=
  match e with
  | EFlag f => forall c1 c2, alike c1 c2 -> alike (f c1) (f c2)
  | EInt f => forall n c1 c2, alike c1 c2 -> alike (f n c1) (f n c2)
  | EStr f => forall n c1 c2, alike c1 c2 -> alike (f n c1) (f n c2)
  end.

Lemma parse_alike tb : Forall (fun x => alike_effect (snd x)) tb -> forall n args c1 c2, (length args <= n)%nat -> alike c1 c2 ->
  match parse_loop tb args c1, parse_loop tb args c2 with
  | Ok c1', Ok c2' => alike c1' c2'
  | Undef u, Undef v => u = v
  | OutOfFuel, OutOfFuel => True
  | _, _ => False
  end.
Proof.
  intro K. induction n as [|n IH]; intros args c1 c2 L I.
  - destruct args; [|simpl in L; lia]. exact I.
  - destruct args as [|a rest]; [exact I|]. simpl in L. cbn [parse_loop].
    destruct (lookup a tb) as [e|] eqn:El; [|apply IH; auto; lia].
    destruct (lookup_in _ _ _ El) as (k & Ik). rewrite Forall_forall in K. specialize (K _ Ik). cbn [snd] in K.
    destruct e as [g|g|g]; cbn [alike_effect] in K.
    + destruct rest as [|x rest]; [reflexivity|]. destruct (atoi x) as [z| |]; cbn [bind]; auto. apply IH; auto. simpl in L. lia.
    + destruct rest as [|x rest]; [apply K; auto|]. apply IH; auto. simpl in L. lia.
    + apply IH; auto. lia.
Qed.

Lemma alike_genben : Forall (fun x => alike_effect (snd x)) tb_genben.
Proof.
  repeat apply Forall_cons; try apply Forall_nil; unfold alike_effect, alike, same_name; cbn; intros n c1 c2 (E1 & E2 & E3 & E4 & E5 & E6 & E7 & F & G); repeat split; auto.
Qed.
Lemma alike_convert : Forall (fun x => alike_effect (snd x)) tb_convert.
Proof.
  repeat apply Forall_cons; try apply Forall_nil; unfold alike_effect, alike, same_name; cbn; intros n c1 c2 (E1 & E2 & E3 & E4 & E5 & E6 & E7 & F & G); repeat split; auto.
Qed.
Lemma alike_default : alike default_cline o_default.
Proof. unfold alike, same_name. cbn. intuition. Qed.

Lemma alike_gen c1 c2 : alike c1 c2 -> (forall r, gen_fin c1 r = gen_fin c2 r) /\ (forall r, gen_bool c1 r = gen_bool c2 r).
Proof.
  destruct c1, c2. unfold alike. cbn. intros (-> & -> & -> & -> & -> & -> & -> & _). split; intro r; reflexivity.
Qed.

Lemma convert_alike conv ni no w c1 c2 r : alike c1 c2 -> run_convert conv ni no w c1 = Ok r -> run_convert conv ni no w c2 = Ok r.
Proof.
  intros (_ & _ & _ & _ & _ & _ & _ & F & M) E. unfold run_convert in *. destruct (c_file c1) as [f|]; [|discriminate].
  destruct F as [<-|(Q & _)]; [|discriminate]. destruct (files_of w f) as [t|]; auto.
  destruct (c_model_file c1) as [g|]; [|discriminate]. destruct M as [<-|(Q & _)]; [|discriminate]. exact E.
Qed.

Lemma generate_alike gen w c1 c2 r : (forall r, gen c1 r = gen c2 r) -> alike c1 c2 ->
  run_generate gen w c1 = Ok r -> run_generate gen w c2 = Ok r.
Proof.
  intros G (_ & _ & _ & _ & _ & _ & _ & F & _) E. unfold run_generate in *. rewrite <- G. destruct (gen c1 _); cbn [bind] in *; auto.
  destruct (c_file c1) as [f|]; [|discriminate]. destruct F as [<-|(Q & _)]; [exact E|discriminate].
Qed.

Lemma convert_banner conv ni no w c r : run_convert conv ni no w c = Ok r -> exists u, screen r = title ++ u.
Proof.
  unfold run_convert. destruct (c_file c) as [f|]; [|discriminate]. rewrite <- banner_title. destruct (files_of w f) as [t|].
  - destruct (c_model_file c) as [g|]; [|discriminate]. destruct (writable w g).
    + intro E. apply bind_ok in E. destruct E as (t' & _ & E). injection E as <-. exists []. symmetry. apply app_nil_r.
    + intro E. injection E as <-. eexists. reflexivity.
  - intro E. injection E as <-. eexists. reflexivity.
Qed.

Lemma generate_banner gen w c r : run_generate gen w c = Ok r -> exists u, screen r = title ++ u.
Proof.
  unfold run_generate. intro E. apply bind_ok in E. destruct E as (t & _ & E). rewrite <- banner_title.
  destruct (c_file c) as [f|]; [|discriminate]. destruct (writable w f); injection E as <-; [exists []; symmetry; apply app_nil_r|eexists; reflexivity].
Qed.

Lemma rebannered r u : screen r = title ++ u -> o_rebanner r = mkRan (orig_title ++ u) (status r) (after r).
Proof.
  intro E. unfold o_rebanner. rewrite E, banner_title, skipn_app, skipn_all, Nat.sub_diag. reflexivity.
Qed.

Theorem omain_same fuel e args w r : (forall rest, args <> txt "-solvech" :: rest /\ args <> txt "-solvenc" :: rest) ->
  main fuel args w = Ok r -> exists u, screen r = title ++ u /\
  (o_main fuel e args w = Ok (mkRan (orig_title ++ u) (status r) (after r)) \/
   (exists rest, args = txt "-genben" :: rest) /\ o_main fuel e args w = Ok (mkRan incorrect_screen 1 (files_of w))).
Proof.
  intros N E. unfold main in E. unfold o_main.
  assert (HH : forall k, (let* t := print_help fuel (stdin_of w) in Ok (mkRan (banner ++ t) 1 (files_of w))) = Ok r -> k = Ok (Some Help) ->
    exists u, screen r = title ++ u /\
      ((let* k := k in match k with
        | Some Help => let* t := print_help fuel (stdin_of w) in Ok (mkRan (o_banner ++ t) 1 (files_of w))
        | _ => Undef NullArg end) = Ok (mkRan (orig_title ++ u) (status r) (after r)))).
  { intros k Q ->. apply bind_ok in Q. destruct Q as (t & Q & R). injection R as <-. exists t. split; [rewrite <- banner_title; reflexivity|]. cbn [bind].
    rewrite Q. reflexivity. }
  destruct args as [|a rest].
  - destruct (HH _ E eq_refl) as (u & H1 & H2). exists u. split; [auto|left; exact H2].
  - unfold dispatch in E. unfold o_dispatch.
    destruct (text_eqb a (txt "-help")).
    { destruct (HH _ E eq_refl) as (u & H1 & H2). exists u. split; [auto|left; exact H2]. }
    destruct (text_eqb_spec a (txt "-genben")) as [->|_].
    { pose proof (parse_alike _ alike_genben (length rest) rest _ _ (Nat.le_refl _) alike_default) as P.
      apply bind_ok in E. destruct E as (k & E & R). apply bind_ok in E. destruct E as (c1 & E & K). injection K as <-.
      rewrite E in P. destruct (parse_loop tb_genben rest o_default) as [c2| |]; try contradiction. cbn [bind].
      destruct (alike_gen _ _ P) as (G1 & G2). pose proof P as (_ & _ & _ & _ & _ & _ & B & _).
      assert (F : exists f, c_file c1 = Some f).
      { destruct (c_bool_finite c1); unfold run_generate in R; apply bind_ok in R; destruct R as (t & _ & R);
          destruct (c_file c1); try discriminate R; eauto. }
      destruct F as (f & F). pose proof P as (_ & _ & _ & _ & _ & _ & _ & F2 & _). rewrite F in F2. destruct F2 as [F2|(F2 & _)]; [|discriminate].
      assert (M : exists b, o_missing false c2 = Ok b).
      { unfold o_missing. rewrite <- F2. destruct (_ || _ || _)%bool; eauto. }
      destruct M as (b & M). rewrite M. cbn [bind].
      assert (U : exists u, screen r = title ++ u) by (destruct (c_bool_finite c1); eapply generate_banner; exact R).
      destruct U as (u & U). exists u. split; [auto|]. destruct b; [right; split; [eauto|reflexivity]|left].
      rewrite <- B. rewrite <- (rebannered _ _ U). destruct (c_bool_finite c1); cbn [bind].
      - rewrite (generate_alike _ _ _ _ _ G1 P R). reflexivity.
      - rewrite (generate_alike _ _ _ _ _ G2 P R). reflexivity. }
    destruct (text_eqb a (txt "-b2f")) eqn:X1; [|destruct (text_eqb a (txt "-linenc")) eqn:X2; [|destruct (text_eqb a (txt "-quadenc")) eqn:X3]].
    1-3: pose proof (parse_alike _ alike_convert (length rest) rest _ _ (Nat.le_refl _) alike_default) as P;
      apply bind_ok in E; destruct E as (k & E & R); apply bind_ok in E; destruct E as (c1 & E & K); injection K as <-;
      rewrite E in P; destruct (parse_loop tb_convert rest o_default) as [c2| |]; try contradiction; cbn [bind];
      destruct (convert_banner _ _ _ _ _ _ R) as (u & U); exists u; split; [exact U|left];
      rewrite <- (rebannered _ _ U); rewrite (convert_alike _ _ _ _ _ _ _ P R); reflexivity.
    destruct (text_eqb_spec a (txt "-solvech")) as [->|_]; [destruct (N rest); congruence|].
    destruct (text_eqb_spec a (txt "-solvenc")) as [->|_]; [destruct (N rest); congruence|].
    destruct (HH _ E eq_refl) as (u & H1 & H2). exists u. split; [auto|left; exact H2].
Qed.

(** When -genben refuses. *)
Lemma final_file : forall os f0, final (fun o => match o with GFile f => Some (Some f) | _ => None end) os (Some f0) =
  Some (final (fun o => match o with GFile f => Some f | _ => None end) os f0).
Proof. induction os as [|o os IH]; intro f0; [reflexivity|]. cbn [final]. destruct o; apply IH. Qed.

Theorem omain_gen fuel e os w : Forall gen_option os ->
  o_main fuel e (txt "-genben" :: List.concat (map gen_text os)) w = Ok (mkRan incorrect_screen 1 (files_of w)) \/ gen_complete os.
Proof.
  intro H. unfold o_main, o_dispatch. cbn [text_eqb txt list_ascii_of_string Ascii.eqb Bool.eqb andb]. rewrite gen_parse by auto. cbn [bind].
  destruct (gen_fields os o_default) as (E1 & E2 & _ & _ & _ & _ & _ & E8). cbn [c_file c_num_var c_num_clause o_default] in *.
  rewrite final_file in E8. unfold o_missing, gen_complete. rewrite E1, E2, E8.
  destruct (Z.eqb_spec (final (fun o => match o with GVar n => Some n | _ => None end) os (-1)) (-1)); [left; reflexivity|].
  destruct (Z.eqb_spec (final (fun o => match o with GClause n => Some n | _ => None end) os (-1)) (-1)); [left; reflexivity|].
  cbn [orb andb bind]. match goal with |- context [text_eqb ?a ?b] => destruct (text_eqb_spec a b) as [EE|NN] end; [left; reflexivity|].
  right. auto.
Qed.

Theorem omain_gen_same fuel e os w r : Forall gen_option os -> gen_complete os ->
  main fuel (txt "-genben" :: List.concat (map gen_text os)) w = Ok r ->
  exists u, screen r = title ++ u /\
    o_main fuel e (txt "-genben" :: List.concat (map gen_text os)) w = Ok (mkRan (orig_title ++ u) (status r) (after r)).
Proof.
  intros H (C1 & C2 & C3) E. destruct (omain_same fuel e (txt "-genben" :: List.concat (map gen_text os)) w r) as (u & U & [R|(_ & R)]); [|exact E|eauto|].
  { intro rest. split; intro Q; vm_compute in Q; discriminate Q. }
  exists u. split; auto. exfalso. unfold o_main, o_dispatch in R.
  cbn [text_eqb txt list_ascii_of_string Ascii.eqb Bool.eqb andb] in R. rewrite gen_parse in R by auto. cbn [bind] in R.
  destruct (gen_fields os o_default) as (E1 & E2 & _ & _ & _ & _ & _ & E8). cbn [c_file c_num_var c_num_clause o_default] in *.
  rewrite final_file in E8. unfold o_missing in R. rewrite E1, E2, E8 in R.
  rewrite (proj2 (Z.eqb_neq _ _) C1), (proj2 (Z.eqb_neq _ _) C2) in R. cbn [orb andb bind] in R.
  match type of R with context [text_eqb ?a ?b] => destruct (text_eqb_spec a b) as [EE|NN] end; [apply C3; exact EE|]. cbn [bind] in R.
  assert (S0 : forall gen r0, run_generate gen w (fold_left gen_apply os o_default) = Ok r0 -> status r0 = 0).
  { intros gen r0 G. unfold run_generate in G. apply bind_ok in G. destruct G as (t & _ & G).
    destruct (c_file _) as [g|]; [|discriminate]. destruct (writable w g); injection G as <-; reflexivity. }
  destruct (c_bool_finite _); apply bind_ok in R; destruct R as (r0 & G & R); apply S0 in G; unfold o_rebanner in R; injection R as _ R2 _; lia.
Qed.

(** ** In the terms of the specification *)

Definition mode_of (learning : bool) : mode := if learning then NonChrono else Chrono.

Theorem oprogram fuel e learning os w f p r : good_run os (files_of w) f p ->
  o_main fuel e (solve_word learning :: args_of os) w = Ok r ->
  exists v note rest d u b n l k,
    screen r = orig_screen f (time1 w) (time2 w) (time3 w) note (orig_answer v d u b n l (nvars p) k ++ rest) /\
    status r = 0 /\ after r = files_of w /\
    orig_right p learning (late_at w (latest sel_time os 3600)) d b v note rest /\
    k = Z.of_nat (length (clauses p)) + if learning then b else 0.
Proof.
  intros [G1 G2 G3 G4 (t & T & FI & A & L & N) G5 W] R.
  destruct learning; [change (solve_word true) with (mode_word NonChrono) in R|change (solve_word false) with (mode_word Chrono) in R];
    destruct (omain_program fuel e _ os w f t p r G1 G2 G3 G4 T W FI A L N G5 R) as (v & note & rest & d & u & b & n & l & k & -> & X & K);
    exists v, note, rest, d, u, b, n, l, k; repeat split; auto.
Qed.

Theorem oends learning os w f p : good_run os (files_of w) f p ->
  learning = false \/ (4 * atoms p + 3) * (literals p + atoms p) <= 1000000000 \/ (exists K, forall k, (K <= k)%nat -> late_at w (latest sel_time os 3600) k = true) ->
  forall e, exists N, forall fuel, (N <= fuel)%nat ->
    match o_main fuel e (solve_word learning :: args_of os) w with
    | Ok r => True
    | Undef u => u = Uninit \/ u = BadPtr \/ learning = true /\ u = OobStack
    | OutOfFuel => False
    end.
Proof.
  intros [G1 G2 G3 G4 (t & T & FI & A & L & N) G5 W] H e.
  destruct learning; [change (solve_word true) with (mode_word NonChrono)|change (solve_word false) with (mode_word Chrono)].
  - destruct (omain_ends NonChrono os w f t p G1 G2 G3 G4 T W FI A L N G5) with (e := e) as (K & E); [destruct H as [H|H]; [discriminate|auto]|].
    exists K. intros fuel Hf. specialize (E fuel Hf). destruct (o_main _ _ _ _); intuition.
  - destruct (omain_ends Chrono os w f t p G1 G2 G3 G4 T W FI A L N G5) with (e := e) as (K & E); [auto|].
    exists K. intros fuel Hf. specialize (E fuel Hf). destruct (o_main _ _ _ _); intuition discriminate.
Qed.

Lemma orig_tail a b c d e f g h : exists z, unlines (orig_answer a b c d e f g h) = z ++ [LF; LF].
Proof.
  exists (unlines (firstn 8 (orig_answer a b c d e f g h)) ++ txt "Number of Clauses     : " ++ TextSpec.num h).
  change (orig_answer a b c d e f g h) with (firstn 8 (orig_answer a b c d e f g h) ++ [txt "Number of Clauses     : " ++ TextSpec.num h; []]) at 1.
  rewrite unlines_app, !unlines_cons. change (unlines []) with (@nil ascii). rewrite <- !app_assoc. reflexivity.
Qed.

Theorem ochecked fuel e learning os w f p r x : good_run os (files_of w) f p ->
  o_main fuel e (solve_word learning :: args_of os) w = Ok r ->
  screen r = x ++ txt "model is CORRECT" ++ [LF] -> satisfiable p.
Proof.
  intros G R X. destruct (oprogram _ _ _ _ _ _ _ _ G R) as (v & note & rest & d & u & b & n & l & k & S & _ & _ & RR & _).
  assert (SC : exists y, screen r = y ++ [LF; LF] ++ unlines rest).
  { rewrite S. destruct (orig_tail v d u b n l (nvars p) k) as (z & E).
    unfold orig_screen. rewrite unlines_app, E. rewrite <- (app_assoc z).
    repeat (apply after_cons || lazymatch goal with |- exists _, z ++ _ = _ => fail | _ => apply after_app end). exists z. reflexivity. }
  destruct SC as (y & SC). rewrite SC in X. destruct RR as [RR|ok _ RR _| |].
  - exact RR.
  - destruct ok; [auto|]. exfalso. apply ends_apart in X. vm_compute in X. discriminate X.
  - exfalso. symmetry in X. apply ends_apart in X. vm_compute in X. discriminate X.
  - exfalso. symmetry in X. apply ends_apart in X. vm_compute in X. discriminate X.
Qed.

Theorem oincomplete fuel e learning os w : Forall orig_option os -> ~ complete os ->
  o_main fuel e (solve_word learning :: args_of os) w = Ok (mkRan incorrect_screen 1 (files_of w)).
Proof. intros H C. destruct learning; [apply (omain_incomplete fuel e NonChrono)|apply (omain_incomplete fuel e Chrono)]; auto. Qed.

Theorem osizes fuel e learning os w : Forall orig_option os -> complete os -> ~ sizes_fit os ->
  o_main fuel e (solve_word learning :: args_of os) w = Undef BadAlloc \/ o_main fuel e (solve_word learning :: args_of os) w = Undef Overflow.
Proof. intros H C. destruct learning; [apply (omain_sizes fuel e NonChrono)|apply (omain_sizes fuel e Chrono)]; auto. Qed.

Theorem ono_file fuel e learning os w f : Forall orig_option os -> complete os -> sizes_fit os -> the_file os = Some f -> files_of w f = None ->
  o_main fuel e (solve_word learning :: args_of os) w =
  Ok (mkRan (orig_title ++ unlines (error_lines (txt "Could not open input file : "))) 1 (files_of w)).
Proof. intros. destruct learning; [apply (omain_no_file fuel e NonChrono _ _ f)|apply (omain_no_file fuel e Chrono _ _ f)]; auto. Qed.

Theorem omismatch fuel e learning os w f t p : Forall orig_option os -> complete os -> sizes_fit os -> the_file os = Some f -> files_of w f = Some t ->
  fits_int p -> documented_as (txt "cnf") p t -> lines_below 3000 t ->
  latest sel_var os (-1) <> nvars p \/ latest sel_clause os (-1) <> Z.of_nat (length (clauses p)) ->
  o_main fuel e (solve_word learning :: args_of os) w = Ok (mkRan mismatch_screen 1 (files_of w)).
Proof. intros. destruct learning; [apply (omain_mismatch fuel e NonChrono _ _ f t p)|apply (omain_mismatch fuel e Chrono _ _ f t p)]; auto. Qed.

Theorem omvcnf fuel e learning os w f t p : Forall orig_option os -> complete os -> sizes_fit os -> the_file os = Some f -> files_of w f = Some t ->
  documented_as (txt "mvcnf") p t -> lines_below 3000 t ->
  o_main fuel e (solve_word learning :: args_of os) w = Undef Uninit.
Proof. intros. destruct learning; [apply (omain_mvcnf fuel e NonChrono _ _ f t p)|apply (omain_mvcnf fuel e Chrono _ _ f t p)]; auto. Qed.

(** A file for a problem announces its numbers. *)
Lemma announced_as p t : fits_int p -> documented_as (txt "cnf") p t -> announces t (nvars p) (Z.of_nat (length (clauses p))).
Proof.
  intros F (ls & hd & ds & cs & HL & FL & (S & HH) & HD & HC) ls' HL' l Hl Hp.
  pose proof (has_lines_unique _ _ _ HL HL') as <-.
  destruct (is_comment l) eqn:Ec; [destruct l as [|a l]; [discriminate|]; apply Ascii.eqb_eq in Ec, Hp; congruence|].
  assert (Hin : In l (hd :: ds ++ cs)) by (rewrite <- FL; apply filter_In; rewrite Ec; auto).
  destruct Hin as [<-|Hin]; [exact HH|]. exfalso. apply in_app_or in Hin. destruct Hin as [Hin|Hin].
  - rewrite (domain_lines_kind _ _ _ HD _ Hin) in Hp. discriminate.
  - clear -HC Hin Hp. induction HC as [|c x C cs H HH IH]; [destruct Hin|]. destruct Hin as [<-|Hin]; auto.
    rewrite (open_line_kind c x) in Hp; [discriminate|right; auto].
Qed.
