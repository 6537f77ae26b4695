(** * Facts about whole runs of the program *)

From Coq Require Import Ascii String Permutation.
From Verif Require Import Spec WideSpec Outcome State ModelSearch ModelBuild Solve Runs Observe Base TextSpec ModelText ModelRead Text
  CliSpec ModelCli Cli ReadBuild ModelEncode ModelB2f ModelGen ModelMenu ModelMain MainSpec Frame.
#[local] Open Scope Z_scope.

(** ** The loop over the options keeps what every option keeps *)

Definition keeps (P : cline -> Prop) (e : effect) : Prop :=
  match e with
  | EFlag f => forall c, P c -> P (f c)
  | EInt f => forall n c, P c -> P (f n c)
  | EStr f => forall n c, P c -> P (f n c)
  end.

Lemma lookup_in a tb e : lookup a tb = Some e -> exists k, In (k, e) tb.
Proof.
  induction tb as [|(k, e') tb IH]; [discriminate|]. cbn [lookup]. destruct (text_eqb a k).
  - intro E. injection E as ->. exists k. left; auto.
  - intro E. destruct (IH E) as (k' & I). exists k'. right; auto.
Qed.

Lemma parse_keeps P tb : Forall (fun x => keeps P (snd x)) tb -> forall n args c c', (length args <= n)%nat ->
  P c -> parse_loop tb args c = Ok c' -> P c'.
Proof.
  intro K. induction n as [|n IH]; intros args c c' L I E.
  - destruct args; [|simpl in L; lia]. injection E as <-. auto.
  - destruct args as [|a rest]; [injection E as <-; auto|]. simpl in L. cbn [parse_loop] in E.
    destruct (lookup a tb) as [e|] eqn:El.
    + destruct (lookup_in _ _ _ El) as (k & Ik). rewrite Forall_forall in K. specialize (K _ Ik). cbn [snd] in K.
      destruct e as [f|f|f]; cbn [keeps] in K.
      * destruct rest as [|x rest']; [discriminate|]. apply bind_ok in E. destruct E as (z & _ & E).
        eapply IH; [|apply K, I|exact E]. simpl in L. lia.
      * destruct rest as [|x rest']; [injection E as <-; apply K, I|].
        eapply IH; [|apply K, I|exact E]. simpl in L. lia.
      * eapply IH; [|apply K, I|exact E]. lia.
    + eapply IH; [|exact I|exact E]. lia.
Qed.

(** A field that no option changes. *)
Lemma dispatch_keeps (P : cline -> Prop) args k : P default_cline ->
  Forall (fun x => keeps P (snd x)) (tb_genben ++ tb_convert ++ tb_solvech ++ tb_solvenc) ->
  dispatch args = Ok k ->
  match k with
  | Help => True
  | GenBenFin c | GenBenBool c | Boolean2Finite c | LinearEncode c | QuadraticEncode c | SolveFinite c _ => P c
  end.
Proof.
  intros D K. rewrite !Forall_app in K. destruct K as (K1 & K2 & K3 & K4).
  assert (PK : forall tb, Forall (fun x => keeps P (snd x)) tb -> forall args c', parse_loop tb args default_cline = Ok c' -> P c').
  { intros tb H args0 c'. apply (parse_keeps P tb H (length args0)); auto. }
  unfold dispatch. destruct args as [|a rest]; [intro E; injection E as <-; exact I|].
  repeat match goal with |- (if ?b then _ else _) = _ -> _ => destruct b end;
    try (intro E; injection E as <-; exact I); intro E; apply bind_ok in E; destruct E as (c & E & E').
  - destruct (c_bool_finite c); injection E' as <-; eapply PK; [exact K1|exact E|exact K1|exact E].
  - injection E' as <-. eapply PK; [exact K2|exact E].
  - injection E' as <-. eapply PK; [exact K2|exact E].
  - injection E' as <-. eapply PK; [exact K2|exact E].
  - injection E' as <-. eapply PK; [exact K3|exact E].
  - injection E' as <-. eapply PK; [exact K4|exact E].
Qed.

(** The model is always printed. *)
Lemma always_model args c m : dispatch args = Ok (SolveFinite c m) -> c_model c = true.
Proof.
  intro E. apply (dispatch_keeps (fun c => c_model c = true) args _ eq_refl) in E; [exact E|].
  repeat constructor; cbn; auto.
Qed.

(** ** Runs of the solver *)

Lemma banner_title : banner = title.
Proof. vm_compute. reflexivity. Qed.

Lemma unlines_app a b : unlines (a ++ b) = unlines a ++ unlines b.
Proof. unfold unlines. rewrite map_app, concat_app. reflexivity. Qed.

Lemma unlines_cons l ls : unlines (l :: ls) = l ++ LF :: unlines ls.
Proof. unfold unlines. cbn [map List.concat]. rewrite <- app_assoc. reflexivity. Qed.

Lemma printed ls : List.concat (map print_lit ls) = unlines (map lit_text ls).
Proof.
  induction ls as [|l ls IH]; [reflexivity|]. cbn [map List.concat]. rewrite unlines_cons, IH. unfold print_lit, lit_text.
  rewrite <- !app_assoc. reflexivity.
Qed.

Definition word (v : verdict) : text := match v with SAT => txt "SAT" | TIMEOUT => txt "TIMEOUT" | UNSAT => txt "UNSAT" end.

Definition rest_lines (verbose : bool) (rep : report) : list text :=
  match r_verified rep with Some _ => model_lines verbose (r_model rep) | None => [] end.

Lemma report_lines c rep : c_model c = true -> r_verified rep <> Some false ->
  report_text c rep =
  unlines (answer_lines (word (r_verdict rep)) (r_decisions rep) (r_units rep) (r_backtracks rep) (r_entails rep)
             (r_variables rep) (r_clauses rep) (r_restarts rep) ++ rest_lines (c_log c) rep).
Proof.
  intros M V. unfold report_text, info_text, answer_lines, rest_lines. rewrite M.
  assert (W : (match r_verdict rep return list ascii with SAT => say ["SAT"] | TIMEOUT => say ["TIMEOUT"] | UNSAT => say ["UNSAT"] end)%string =
              word (r_verdict rep) ++ [LF]) by (destruct (r_verdict rep); reflexivity).
  rewrite W. rewrite unlines_app, !unlines_cons. change (unlines []) with (@nil ascii). unfold BEL.
  repeat (rewrite <- ?app_assoc; cbn [app]; f_equal).
  destruct (r_verified rep) as [ok|]; [|reflexivity]. destruct ok; [|congruence].
  unfold model_lines. rewrite unlines_cons, !unlines_app, printed. unfold say, rows. cbn [map].
  rewrite !unlines_cons. cbn [unlines map List.concat app]. rewrite <- !app_assoc. cbn [app].
  destruct (c_log c); reflexivity.
Qed.

Definition lazy_of (c : cline) : bool := match c_heur c with Lazy => true | _ => false end.

(** What -wl writes before the times if there is no model. *)
Definition early (c : cline) (m : mode) (w : text) : text :=
  match m with
  | NonChrono => if c_watch c && text_eqb w (txt "UNSAT") then txt "UNSAT" ++ [LF] else []
  | Chrono => []
  end.

Theorem solver_run args c m w f t p :
  dispatch args = Ok (SolveFinite c m) -> c_file c = Some f -> files_of w f = Some t -> 0 <= c_clause_size c ->
  missing_return w = true ->
  wf p -> (m = NonChrono -> no_repeats p) -> fits_int p -> accepted p t -> lines_below 3000 t ->
  exists N v rest d u b e n r,
    right p (lazy_of c) (c_log c) (late_at w (c_time c)) v rest /\
    n = Z.of_nat (length (clauses p)) + match m with Chrono => 0 | NonChrono => b end /\
    r = match m with Chrono => 0 | NonChrono => if 0 <? c_restarts c then b / c_restarts c else 0 end /\
    forall fuel, (N <= fuel)%nat ->
      main fuel args w =
      Ok (mkRan (solver_screen f (time1 w) (time2 w) (time3 w) ((if c_log c then logged w else []) ++ early c m v)
                   (answer_lines v d u b e (nvars p) n r ++ rest)) 0 (files_of w)).
Proof.
  intros Ed Ef Et Hs Hm W NR F D L. pose proof (dispatch_setting args c m true Ed eq_refl) as ST.
  assert (IN : input m p) by (split; auto).
  set (cf := mkCfg (c_heur c) (c_watch c) true) in *.
  destruct (run_ok m cf (late_at w (c_time c)) (c_restarts c) p ST (proj1 (input_wide _ _ IN))) as (N & rep & s & H & R).
  pose proof (H N (le_n N)) as HN. destruct R as [R RC RR].
  assert (CHK : r_verified rep = match r_verdict rep with SAT => Some true | _ => None end).
  { destruct (r_verdict rep) eqn:V; [apply (run_check m cf (late_at w (c_time c)) (c_restarts c) p N rep s ST IN HN V)| |].
    all: unfold solve in HN; apply bind_ok in HN; destruct HN as (s0 & _ & HN); unfold solve_state in HN;
      apply bind_ok in HN; destruct HN as ((v, s1) & _ & HN); cbn [fst snd] in HN; destruct v;
      [apply bind_ok in HN; destruct HN as (b & _ & HN)| |];
      (injection HN as <- <-); (discriminate V || reflexivity). }
  exists N, (word (r_verdict rep)), (rest_lines (c_log c) rep), (r_decisions rep), (r_units rep), (r_backtracks rep),
    (r_entails rep), (r_clauses rep), (r_restarts rep).
  split; [|split; [exact RC|split; [exact RR|]]].
  - unfold rest_lines. rewrite CHK. destruct (r_verdict rep) eqn:V; cbn [word].
    + unfold lazy_of. destruct (c_heur c) eqn:Eh.
      1,2,4: destruct (run_model m cf (late_at w (c_time c)) (c_restarts c) p N rep s ST IN) as (a & A & P); auto;
          [unfold cf; cbn; congruence|]; apply (RSat _ _ _ _ _ a); auto.
      destruct (run_lazy m cf (late_at w (c_time c)) (c_restarts c) p N rep s ST IN) as (a & A & P); auto.
      apply (RSat _ _ _ _ _ a); auto.
    + destruct (run_time m cf (late_at w (c_time c)) (c_restarts c) p N rep s ST IN HN V) as (k & Hk). apply (RTimeout _ _ _ _ k); auto.
    + apply RUnsat. apply (run_unsat m cf (late_at w (c_time c)) (c_restarts c) p N rep s ST IN HN V).
  - intros fuel Hf. unfold main. rewrite Ed. cbn [bind]. unfold run_solver. rewrite Hm.
    rewrite (solve_finite_accepted fuel true (late_at w (c_time c)) (files_of w) c m f t p) by auto. fold cf. rewrite H by auto.
    cbn [bind]. rewrite Ef, banner_title. do 2 f_equal. unfold solver_screen.
    rewrite report_lines; [|apply (always_model args c m Ed)|rewrite CHK; destruct (r_verdict rep); discriminate].
    rewrite (rk_vars _ _ _ _ _ R).
    assert (EE : announced c m (r_verdict rep) = early c m (word (r_verdict rep))).
    { unfold announced, early. destruct m; auto. destruct (r_verdict rep); cbn [word]; destruct (c_watch c); reflexivity. }
    rewrite EE. change (txt " ") with [SP]. rewrite !unlines_cons. cbn [app]. rewrite <- !app_assoc. cbn [app].
    rewrite <- ?app_assoc. reflexivity.
Qed.

Lemma solver_no_file fuel args c m w f : dispatch args = Ok (SolveFinite c m) -> c_file c = Some f -> files_of w f = None ->
  main fuel args w = Ok (mkRan (title ++ unlines (error_lines (txt "Could not open input file : "))) 1 (files_of w)).
Proof.
  intros Ed Ef Et. unfold main. rewrite Ed. cbn [bind]. unfold run_solver, solve_finite. rewrite Ef, Et. cbn [bind].
  rewrite banner_title. reflexivity.
Qed.

Lemma solver_no_name fuel args c m w : dispatch args = Ok (SolveFinite c m) -> c_file c = None ->
  main fuel args w = Undef NullArg.
Proof. intros Ed Ef. unfold main. rewrite Ed. cbn [bind]. unfold run_solver, solve_finite. rewrite Ef. reflexivity. Qed.
