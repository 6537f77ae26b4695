(** * Facts about the program of the second solver *)

From Coq Require Import Ascii String Permutation.
From Verif Require Import Spec Outcome State ModelSearch ModelBuild Base TextSpec ModelText ModelRead Text Read
  CliSpec ModelCli Cli ModelGen ModelMenu ModelMain MainSpec MainFacts MainMore Pipe ModelBit BitSpec BitBuild BitSafe BitRuns ModelBitMain BitMainSpec.
#[local] Open Scope Z_scope.

(** ** The menu *)

Lemma bpage_case k : bpage k = bmenu_text ++ LF :: fst (bmenu_case k).
Proof.
  unfold bpage. f_equal. f_equal. destruct k as [|q|q]; [reflexivity| |reflexivity]. destruct q; reflexivity.
Qed.

Lemma bstop_case k : snd (bmenu_case k) = true <-> k = 0.
Proof.
  split; [|intros ->; reflexivity]. destruct k as [|q|q]; [reflexivity| |discriminate]. destruct q; discriminate.
Qed.

Lemma bmenu_page k r fuel old : in_int k = true -> k <> 0 -> stops r ->
  bmenu (S fuel) true old (num k ++ r) =
  let* rest := bmenu fuel (match r with [] => false | _ => true end) k (getchar (getchar r)) in Ok (bpage k ++ rest).
Proof.
  intros I N S. cbn [bmenu]. rewrite cin_num by auto. rewrite bpage_case. pose proof (bstop_case k) as C.
  destruct (bmenu_case k) as [out b]. cbn [fst snd] in *. destruct b; [destruct C as [C _]; specialize (C eq_refl); contradiction|].
  destruct (bmenu _ _ _ _); cbn [bind]; auto.
Qed.

Lemma bmenu_quit r old fuel : stops r -> bmenu (S fuel) true old (num 0 ++ r) = Ok (bpage 0).
Proof. intro S. cbn [bmenu]. rewrite cin_num by auto. reflexivity. Qed.

Theorem bmenu_reads : forall ks r fuel old, Forall choice ks -> stops r -> (length ks < fuel)%nat ->
  bmenu fuel true old (entered ks ++ num 0 ++ r) = Ok (List.concat (map bpage (map (fun e => fst (fst e)) ks ++ [0]))).
Proof.
  induction ks as [|[[k y] x] ks IH]; intros r fuel old F S L.
  - destruct fuel; [simpl in L; lia|]. cbn [entered map List.concat app]. rewrite bmenu_quit by auto. rewrite app_nil_r. reflexivity.
  - inversion F as [|? ? C F']; subst. change (k <> 0 /\ an_int k /\ digit y = None) in C. destruct C as (N & I & Y). destruct fuel as [|fuel]; [simpl in L; lia|].
    unfold entered. cbn [map List.concat]. rewrite <- !app_assoc. cbn [app]. fold (entered ks).
    rewrite bmenu_page; [|apply an_int_in; auto|auto|unfold stops, is_digit; rewrite Y; reflexivity].
    cbn [getchar]. rewrite IH by (auto; simpl in L; lia). reflexivity.
Qed.

Theorem bmenu_not_number t fuel : (forall z r, scan_int (skip_space t) <> Some (z, r)) -> bmenu (S fuel) true 0 t = Ok (bpage 0).
Proof.
  intro H. cbn [bmenu]. unfold cin_int. cbn [negb]. destruct (skip_space t) as [|a q]; [reflexivity|].
  destruct (scan_int (a :: q)) as [[z r]|]; [destruct (H z r eq_refl)|]. reflexivity.
Qed.

Lemma bmenu_stuck : forall fuel k t, k <> 0 -> bmenu fuel false k t = OutOfFuel.
Proof.
  induction fuel as [|fuel IH]; intros k t N; [reflexivity|]. cbn [bmenu cin_int negb].
  pose proof (bstop_case k) as C. destruct (bmenu_case k) as [out b]. cbn [snd] in C.
  destruct b; [destruct C as [C _]; specialize (C eq_refl); contradiction|]. rewrite IH by auto. reflexivity.
Qed.

Lemma bmenu_blank fuel k b : k <> 0 -> (forall a, In a b -> isspace a = true) -> bmenu fuel true k b = OutOfFuel.
Proof.
  intros N B. destruct fuel as [|fuel]; [reflexivity|]. cbn [bmenu]. unfold cin_int. cbn [negb].
  assert (E : skip_space b = []). { clear -B. induction b as [|a b IH]; [reflexivity|]. cbn [skip_space]. rewrite (B a) by (left; auto). apply IH. intros; apply B; right; auto. }
  rewrite E. pose proof (bstop_case k) as C. destruct (bmenu_case k) as [out s]. cbn [snd] in C.
  destruct s; [destruct C as [C _]; specialize (C eq_refl); contradiction|]. rewrite bmenu_stuck by auto. reflexivity.
Qed.

Theorem bmenu_endless : forall ks b fuel old, Forall choice ks -> ks <> [] -> (forall a, In a b -> isspace a = true) ->
  bmenu fuel true old (entered ks ++ b) = OutOfFuel.
Proof.
  induction ks as [|[[k y] x] ks IH]; intros b fuel old F N B; [congruence|].
  inversion F as [|? ? C F']; subst. change (k <> 0 /\ an_int k /\ digit y = None) in C. destruct C as (K & I & Y). destruct fuel as [|fuel]; [reflexivity|].
  unfold entered. cbn [map List.concat]. rewrite <- !app_assoc. cbn [app]. fold (entered ks).
  rewrite bmenu_page; [|apply an_int_in; auto|auto|unfold stops, is_digit; rewrite Y; reflexivity]. cbn [getchar].
  destruct ks as [|e ks]; [cbn [entered map List.concat app]; rewrite bmenu_blank by auto; reflexivity|].
  rewrite IH; auto. discriminate.
Qed.

Theorem bmenu_word : forall ks u fuel old, Forall choice ks -> skip_space u <> [] -> (forall z r, scan_int (skip_space u) <> Some (z, r)) ->
  (length ks < fuel)%nat ->
  bmenu fuel true old (entered ks ++ u) = Ok (List.concat (map bpage (map (fun e => fst (fst e)) ks ++ [0]))).
Proof.
  induction ks as [|[[k y] x] ks IH]; intros u fuel old F NE H L.
  - destruct fuel; [simpl in L; lia|]. cbn [entered map List.concat app]. rewrite app_nil_r. cbn [bmenu]. unfold cin_int. cbn [negb].
    destruct (skip_space u) as [|a q]; [congruence|]. destruct (scan_int (a :: q)) as [[z r]|]; [destruct (H z r eq_refl)|]. reflexivity.
  - inversion F as [|? ? C F']; subst. change (k <> 0 /\ an_int k /\ digit y = None) in C. destruct C as (N & I & Y). destruct fuel as [|fuel]; [simpl in L; lia|].
    unfold entered. cbn [map List.concat]. rewrite <- !app_assoc. cbn [app]. fold (entered ks).
    rewrite bmenu_page; [|apply an_int_in; auto|auto|unfold stops, is_digit; rewrite Y; reflexivity].
    cbn [getchar]. rewrite IH by (auto; simpl in L; lia). reflexivity.
Qed.

(** ** The command line *)

Definition bit_apply (c : cline) (o : opt) : cline :=
  match o with
  | OFile f => with_file (Some f) c
  | OTime n => with_time n c
  | ORestart n => with_restarts n c
  | OWl => with_watch c
  | OVsids => with_heur VSIDS c
  | OVerbose => with_log c
  | OModel => with_model c
  | OVar n => with_var n c
  | OClause n => with_clause n c
  | OClauseSize n => with_clause_size n c
  | OModelFile _ | OWord _ | OVsidsPos | OLazy => c
  end.

Lemma bit_step o rest c : bit_option o ->
  parse_loop tb_bit (opt_text o ++ rest) c = parse_loop tb_bit rest (bit_apply c o).
Proof.
  intro H. destruct o; cbn [opt_text app bit_option] in *; try reflexivity; try (destruct H; fail).
  all: try (cbn; rewrite atoi_num by (apply an_int_in; exact H); reflexivity).
  cbn [parse_loop]. rewrite lookup_none; auto. intro Q. apply H. clear -Q. cbn in *. tauto.
Qed.

Lemma bit_parse : forall os c, Forall bit_option os -> parse_loop tb_bit (args_of os) c = Ok (fold_left bit_apply os c).
Proof.
  induction os as [|o os IH]; intros c H; [reflexivity|]. inversion H; subst. unfold args_of. simpl map. cbn [List.concat].
  rewrite bit_step by auto. apply IH. auto.
Qed.

Lemma bit_dispatch os : Forall bit_option os ->
  bdispatch (txt "-solvenc" :: args_of os) = Ok (Some (fold_left bit_apply os bdefault)).
Proof. intro H. unfold bdispatch. cbn [text_eqb txt list_ascii_of_string Ascii.eqb Bool.eqb andb]. rewrite bit_parse by auto. reflexivity. Qed.

Definition is_vsids (c : cline) : bool := match c_heur c with VSIDS => true | _ => false end.

Lemma bit_fields : forall os c, let r := fold_left bit_apply os c in
  c_file r = latest sel_file os (c_file c) /\ c_time r = latest sel_time os (c_time c) /\
  c_restarts r = latest sel_restart os (c_restarts c) /\
  c_clause_size r = latest sel_size os (c_clause_size c) /\ c_log r = latest sel_verbose os (c_log c) /\
  is_vsids r = latest sel_vsids os (is_vsids c).
Proof.
  induction os as [|o os IH]; intros c r.
  - unfold r. simpl. repeat split.
  - unfold r. cbn [fold_left latest]. destruct (IH (bit_apply c o)) as (E1 & E2 & E3 & E4 & E5 & E6).
    rewrite E1, E2, E3, E4, E5, E6. destruct o; cbn; repeat split; auto.
Qed.

Lemma bit_model args c : bdispatch args = Ok (Some c) -> c_model c = true.
Proof.
  unfold bdispatch. destruct args as [|a rest]; [discriminate|]. destruct (text_eqb a (txt "-help")); [discriminate|].
  destruct (text_eqb a (txt "-solvenc")); [|discriminate]. intro E. apply bind_ok in E. destruct E as (c' & E & Q). injection Q as <-.
  refine (parse_keeps (fun c => c_model c = true) tb_bit _ _ rest bdefault _ (Nat.le_refl _) eq_refl E).
  repeat constructor; cbn; auto.
Qed.

(** ** What is printed *)

Lemma bits_row n m : bits_text n m = map (fun d => if Z.testbit m (Z.of_nat d) then "1"%char else "0"%char) (rev (seq 0 n)).
Proof.
  induction n as [|n IH]; [reflexivity|]. rewrite seq_S, rev_app_distr. cbn [bits_text rev app map plus]. rewrite IH. reflexivity.
Qed.

(** The sets in a list of pairs. *)
Definition set_of (md : list (Z * Z)) (v d : Z) : bool :=
  match find (fun x => fst x =? v) md with Some (_, m) => Z.testbit m d | None => false end.

Lemma set_of_in md v m d : NoDup (map fst md) -> In (v, m) md -> set_of md v d = Z.testbit m d.
Proof.
  unfold set_of. induction md as [|(u, q) md IH]; intros N H; [destruct H|]. cbn [map fst] in N. apply NoDup_cons_iff in N.
  destruct N as (N1 & N2). cbn [find fst]. destruct H as [H|H].
  - injection H as -> ->. rewrite Z.eqb_refl. reflexivity.
  - destruct (Z.eqb_spec u v) as [->|]; [|apply IH; auto]. destruct N1. apply in_map_iff. exists (v, m). auto.
Qed.

Lemma set_of_has md v d : set_of md v d = true -> exists m, In (v, m) md /\ Z.testbit m d = true.
Proof.
  unfold set_of. destruct (find _ md) as [(u, m)|] eqn:E; [|discriminate]. apply find_some in E. cbn [fst] in E.
  destruct E as (E1 & E2). apply Z.eqb_eq in E2. subst. eauto.
Qed.

Lemma rows_of md n : map fst md = map Z.of_nat (seq 0 n) ->
  map (fun x => num (fst x) ++ txt "=" ++ bits_text 64 (snd x)) md =
  map (fun v => set_row (Z.of_nat v) (set_of md (Z.of_nat v))) (seq 0 n).
Proof.
  intro H. rewrite <- (map_map Z.of_nat (fun v => set_row v (set_of md v))). rewrite <- H, map_map. apply map_ext_in.
  intros (v, m) I. cbn [fst snd]. unfold set_row. rewrite bits_row. do 2 f_equal. apply map_ext. intro d.
  rewrite (set_of_in md v m); auto. rewrite H. apply FinFun.Injective_map_NoDup; [intros x y; lia|apply seq_NoDup].
Qed.

Lemma bprinted md : List.concat (map bits_line md) = unlines (map (fun x => num (fst x) ++ txt "=" ++ bits_text 64 (snd x)) md).
Proof.
  induction md as [|x md IH]; [reflexivity|]. cbn [map List.concat]. rewrite unlines_cons, IH. unfold bits_line.
  rewrite <- !app_assoc. reflexivity.
Qed.

Definition brest_lines (verbose : bool) (rep : breport) : list text :=
  match br_verified rep with
  | Some ok => txt "The model: " :: map (fun x => num (fst x) ++ txt "=" ++ bits_text 64 (snd x)) (br_model rep) ++
      (if verbose then [[]] else []) ++ [if ok then txt "Verifying model ... model is CORRECT" else txt "Verifying model ... model is INCORRECT"]
  | None => []
  end.

Lemma breport_lines c rep : c_model c = true ->
  breport_text c rep =
  unlines (answer_lines (word (br_verdict rep)) (br_decisions rep) (br_units rep) (br_backtracks rep) 0
             (br_variables rep) (br_clauses rep) (br_restarts rep) ++ brest_lines (c_log c) rep).
Proof.
  intros M. unfold breport_text, binfo_text, answer_lines, brest_lines. rewrite M.
  assert (W : (match br_verdict rep return list ascii with SAT => say ["SAT"] | TIMEOUT => say ["TIMEOUT"] | UNSAT => say ["UNSAT"] end)%string =
              word (br_verdict rep) ++ [LF]) by (destruct (br_verdict rep); reflexivity).
  rewrite W. rewrite unlines_app, !unlines_cons. change (unlines []) with (@nil ascii). unfold BEL.
  repeat (rewrite <- ?app_assoc; cbn [app]; f_equal).
  destruct (br_verified rep) as [ok|]; [|reflexivity].
  rewrite unlines_cons, !unlines_app, bprinted. unfold say, rows. cbn [map].
  rewrite !unlines_cons. cbn [unlines map List.concat app]. rewrite <- !app_assoc. cbn [app].
  destruct (c_log c), ok; reflexivity.
Qed.

Definition bscreen (w : machine) (c : cline) (f : text) (rep : breport) : text :=
  solver_screen f (time1 w) (time2 w) (time3 w)
    ((if c_log c then logged w else []) ++ (if text_eqb (word (br_verdict rep)) (txt "UNSAT") then txt "UNSAT" ++ [LF] else []))
    (answer_lines (word (br_verdict rep)) (br_decisions rep) (br_units rep) (br_backtracks rep) 0
       (br_variables rep) (br_clauses rep) (br_restarts rep) ++ brest_lines (c_log c) rep).

Lemma none_large p : fits64 p -> too_large (items_of p) = [].
Proof.
  intro H. unfold too_large, items_of. rewrite map_app, concat_app.
  assert (E1 : List.concat (map (fun i => match i with IDom d => if max_domain <? d then say ["Error: domain exceeds MAX_DOMAIN"%string] else [] | ICls _ => [] end) (map IDom (doms p))) = []).
  { unfold fits64 in H. induction (doms p) as [|d ds IH]; [reflexivity|]. cbn [map List.concat].
    unfold max_domain. destruct (Z.ltb_spec 64 d); [specialize (H d (or_introl eq_refl)); lia|]. apply IH. intros; apply H; right; auto. }
  rewrite E1. clear. induction (clauses p) as [|c cs IH]; [reflexivity|]. exact IH.
Qed.

Lemma brun_file fuel w c f t p : c_file c = Some f -> files_of w f = Some t -> 0 <= c_clause_size c -> c_model c = true ->
  fits64 p -> read_file t = Ok (items_of p) ->
  brun fuel w c =
  let* q := bsolve fuel (mkBcfg (is_vsids c) (missing_return w)) (late_at w (c_time c)) (c_restarts c) p in
  Ok (mkRan (bscreen w c f (fst q)) 0 (files_of w)).
Proof.
  intros Ef Et Hs M FI R. unfold brun. rewrite Ef, Et. destruct (Z.ltb_spec (c_clause_size c) 0); [lia|]. cbn [andb].
  rewrite R. cbn [bind]. unfold bsolve. destruct (bbuild (items_of p)) as [s| |]; try reflexivity. cbn [bind].
  fold (is_vsids c). destruct (bsolve_state _ _ _ _ s) as [q| |]; try reflexivity. cbn [bind]. do 2 f_equal.
  rewrite none_large by auto. cbn [app]. unfold bscreen, solver_screen. rewrite banner_title, breport_lines by auto.
  assert (EE : bannounced (br_verdict (fst q)) = if text_eqb (word (br_verdict (fst q))) (txt "UNSAT") then txt "UNSAT" ++ [LF] else [])
    by (destruct (br_verdict (fst q)); reflexivity).
  rewrite EE. change (txt " ") with [SP]. rewrite !unlines_cons. cbn [app]. rewrite <- !app_assoc. cbn [app].
  rewrite <- ?app_assoc. reflexivity.
Qed.

(** ** Whole runs *)

Lemma right_lines p late rep log :
  match br_verdict rep with
  | SAT => map fst (br_model rep) = zrange 0 (nvars p + 1) /\
      (forall v m, In (v, m) (br_model rep) -> v <> 0 -> exists d, 0 <= d < domsize p v /\ has_value m d) /\
      (forall v m d, In (v, m) (br_model rep) -> has_value m d -> v <> 0 /\ 0 <= d < domsize p v) /\
      (forall a, picks (br_model rep) a -> is_model p a) /\ br_verified rep = Some true
  | UNSAT => ~ satisfiable p
  | TIMEOUT => exists j, late j = true
  end -> br_verified rep = match br_verdict rep with SAT => Some true | _ => None end ->
  right_sets p log late (word (br_verdict rep)) (brest_lines log rep).
Proof.
  intros V CHK.
  unfold brest_lines. rewrite CHK. destruct (br_verdict rep) eqn:V0; cbn [word].
    + destruct V as (M1 & M2 & M3 & M4 & _).
      assert (M1' : map fst (br_model rep) = map Z.of_nat (seq 0 (1 + Z.to_nat (nvars p)))).
      { rewrite M1. unfold zrange, nvars. replace (Z.to_nat (Z.of_nat (length (doms p)) + 1)) with (1 + Z.to_nat (Z.of_nat (length (doms p))))%nat by lia.
        apply map_ext. intro. lia. }
      rewrite (rows_of _ _ M1').
      assert (ND : NoDup (map fst (br_model rep))).
      { rewrite M1'. apply FinFun.Injective_map_NoDup; [intros x y; lia|apply seq_NoDup]. }
      assert (EX : forall v, 0 <= v <= nvars p -> exists m, In (v, m) (br_model rep)).
      { intros v Hv. assert (I : In v (map fst (br_model rep))).
        { rewrite M1'. apply in_map_iff. exists (Z.to_nat v). split; [lia|]. apply in_seq. lia. }
        apply in_map_iff in I. destruct I as ((u, m) & E & I). cbn in E. subst u. eauto. }
      apply QSat.
      * intros a Ha. apply M4. intros v m I N0. unfold has_value.
        assert (Hv : 0 <= v <= nvars p).
        { assert (I2 : In v (map fst (br_model rep))) by (apply in_map_iff; exists (v, m); auto). rewrite M1' in I2.
          apply in_map_iff in I2. destruct I2 as (k & <- & I2). apply in_seq in I2. lia. }
        rewrite <- (set_of_in _ v m _ ND I). apply Ha. lia.
      * intros v Hv. destruct (EX v ltac:(lia)) as (m & I). destruct (M2 v m I ltac:(lia)) as (d & _ & Hd). exists d.
        rewrite (set_of_in _ v m d ND I). exact Hd.
      * intros v d Hv Hd. apply set_of_has in Hd. destruct Hd as (m & I & Hd). apply (M3 v m d I Hd).
    + destruct V as (k & Hk). apply (QTimeout _ _ _ k); auto.
    + apply QUnsat. exact V.
Qed.

Lemma checked_if_sat fuel cf clk r p rep s : bsolve fuel cf clk r p = Ok (rep, s) ->
  br_verdict rep <> SAT -> br_verified rep = None.
Proof.
  intros R V0. unfold bsolve in R; apply bind_ok in R; destruct R as (s0 & _ & R); unfold bsolve_state in R;
      apply bind_ok in R; destruct R as ((v, s1) & _ & R); destruct v;
      [apply bind_ok in R; destruct R as (b & _ & R)| |]; (injection R as <- <-); [exfalso; apply V0|..]; reflexivity.
Qed.

Theorem bmain_ok os w f t p :
  Forall bit_option os -> latest sel_file os None = Some f -> files_of w f = Some t ->
  0 <= latest sel_size os 3 -> latest sel_restart os 0 <= 0 -> missing_return w = true ->
  wf p -> fits64 p -> lone p -> fits_int p -> accepted p t -> lines_below 3000 t ->
  exists N v rest d u b,
    right_sets p (latest sel_verbose os false) (late_at w (latest sel_time os 3600)) v rest /\ 0 <= b /\
    forall fuel, (N <= fuel)%nat ->
      bmain fuel (txt "-solvenc" :: args_of os) w =
      Ok (mkRan (solver_screen f (time1 w) (time2 w) (time3 w)
                   ((if latest sel_verbose os false then logged w else []) ++ (if text_eqb v (txt "UNSAT") then txt "UNSAT" ++ [LF] else []))
                   (answer_lines v d u b 0 (nvars p) (Z.of_nat (length (clauses p)) + b) 0 ++ rest)) 0 (files_of w)).
Proof.
  intros H Ef Et Hs Hr Hm W FI LO F D L. pose proof (bit_dispatch os H) as Ed. pose proof (bit_model _ _ Ed) as M.
  destruct (bit_fields os bdefault) as (E1 & E2 & E3 & E4 & E5 & E6). cbn in E1, E2, E3, E4, E5, E6.
  set (c := fold_left bit_apply os bdefault) in *.
  destruct (bit_run p W FI (mkBcfg (is_vsids c) (missing_return w)) (late_at w (c_time c)) (c_restarts c)) as (N & rep & s & R & V & V1 & V2 & V3 & V4 & _); auto; try lia.
  assert (CHK : br_verified rep = match br_verdict rep with SAT => Some true | _ => None end).
  { destruct (br_verdict rep) eqn:V0; [apply V| |]; apply (checked_if_sat _ _ _ _ _ _ _ (R N (Nat.le_refl _))); congruence. }
  exists N, (word (br_verdict rep)), (brest_lines (c_log c) rep), (br_decisions rep), (br_units rep), (br_backtracks rep).
  split; [|split; [exact V4|]].
  - rewrite <- E5, <- E2. apply right_lines; auto.
  - intros fuel Hf. unfold bmain. rewrite Ed. cbn [bind].
    rewrite (brun_file fuel w c f t p); auto; [|congruence|lia|apply read_accepted; auto].
    rewrite R by auto. cbn [bind fst]. unfold bscreen. rewrite V1, V2, V3, E5. reflexivity.
Qed.

Lemma ends_apart x y (A B : text) : x ++ A = y ++ B -> firstn (length A) (rev B ++ rev y) = rev A.
Proof.
  intro H. rewrite <- rev_app_distr, <- H, rev_app_distr. rewrite firstn_app, rev_length, Nat.sub_diag, firstn_O, app_nil_r.
  rewrite <- (rev_length A). apply firstn_all.
Qed.

Lemma num_tail n : exists a q, num n = q ++ [a].
Proof. destruct (exists_last (l := num n)) as (q & a & E); [destruct (num_cons n) as (a & q & ->); discriminate|eauto]. Qed.

Lemma after_app (A T B : text) : (exists y, T = y ++ B) -> exists y, A ++ T = y ++ B.
Proof. intros (y & ->). exists (A ++ y). apply app_assoc. Qed.

Lemma after_cons a (T B : text) : (exists y, T = y ++ B) -> exists y, a :: T = y ++ B.
Proof. intros (y & ->). exists (a :: y). reflexivity. Qed.

Lemma answer_tail a b c d e f g h : exists z, unlines (answer_lines a b c d e f g h) = z ++ [LF; LF].
Proof.
  exists (unlines (firstn 8 (answer_lines a b c d e f g h)) ++ txt "Restarts   : " ++ num h).
  change (answer_lines a b c d e f g h) with (firstn 8 (answer_lines a b c d e f g h) ++ [txt "Restarts   : " ++ num h; []]) at 1.
  rewrite unlines_app, !unlines_cons. change (unlines []) with (@nil ascii). rewrite <- !app_assoc. reflexivity.
Qed.

Theorem bmain_checked fuel os w f t p r x :
  Forall bit_option os -> latest sel_file os None = Some f -> files_of w f = Some t -> 0 <= latest sel_size os 3 ->
  wf p -> fits64 p -> fits_int p -> accepted p t -> lines_below 3000 t ->
  bmain fuel (txt "-solvenc" :: args_of os) w = Ok r ->
  screen r = x ++ txt "model is CORRECT" ++ [LF] ->
  exists y S, screen r = y ++ unlines (sets_lines (latest sel_verbose os false) (nvars p) S) /\ sets_good p S.
Proof.
  intros H Ef Et Hs W FI F D L R X. pose proof (bit_dispatch os H) as Ed. pose proof (bit_model _ _ Ed) as M.
  destruct (bit_fields os bdefault) as (E1 & E2 & E3 & E4 & E5 & E6). cbn in E1, E2, E3, E4, E5, E6.
  set (c := fold_left bit_apply os bdefault) in *.
  unfold bmain in R. rewrite Ed in R. cbn [bind] in R.
  rewrite (brun_file fuel w c f t p) in R; auto; [|congruence|lia|apply read_accepted; auto].
  apply bind_ok in R. destruct R as ((rep, s) & R & Q). injection Q as <-. cbn [fst screen] in *.
  assert (SC : exists y, bscreen w c f rep = y ++ [LF; LF] ++ unlines (brest_lines (c_log c) rep)).
  { unfold bscreen. match goal with |- context [answer_lines ?a ?b ?c ?d ?e ?f ?g ?h] =>
      destruct (answer_tail a b c d e f g h) as (z & E) end.
    unfold solver_screen. change ([] :: [] :: ?a ++ ?b) with (([] :: [] :: a) ++ b). rewrite unlines_app.
    rewrite !unlines_cons, E. cbn [app]. rewrite <- (app_assoc z).
    repeat (apply after_cons || lazymatch goal with |- exists _, z ++ _ = _ => fail | _ => apply after_app end). exists z. reflexivity. }
  destruct SC as (y & SC). rewrite SC in X. unfold brest_lines in X.
  destruct (br_verified rep) as [ok|] eqn:VE.
  - assert (E0 : map fst (br_model rep) = map Z.of_nat (seq 0 (1 + Z.to_nat (nvars p)))).
    { rewrite (bit_rows p fuel _ _ _ rep s W FI R) by congruence. unfold zrange, nvars.
      replace (Z.to_nat (Z.of_nat (length (doms p)) + 1)) with (1 + Z.to_nat (Z.of_nat (length (doms p))))%nat by lia.
      apply map_ext. intro. lia. }
    destruct ok.
    + exists (y ++ [LF; LF]), (set_of (br_model rep)). split.
      * rewrite SC. unfold brest_lines. rewrite VE, <- app_assoc, (rows_of _ _ E0), E5. reflexivity.
      * intros a Ha. apply (bit_checked p fuel _ _ _ rep s W FI R VE). intros v m I N0. unfold has_value.
        assert (Hv : 0 <= v <= nvars p).
        { assert (I2 : In v (map fst (br_model rep))) by (apply in_map_iff; exists (v, m); auto). rewrite E0 in I2.
          apply in_map_iff in I2. destruct I2 as (k & <- & I2). apply in_seq in I2. lia. }
        rewrite <- (set_of_in (br_model rep) v m); auto; [apply Ha; lia|]. rewrite E0.
        apply FinFun.Injective_map_NoDup; [intros i j; lia|apply seq_NoDup].
    + exfalso.
      match type of X with ?l = _ => assert (E : exists z, l = z ++ txt "Verifying model ... model is INCORRECT" ++ [LF]) end.
      { rewrite unlines_cons, !unlines_app. do 2 apply after_app. apply after_app. apply after_cons. do 2 apply after_app.
        exists []. reflexivity. }
      destruct E as (z & E). rewrite X in E. apply ends_apart in E. vm_compute in E. discriminate E.
  - exfalso. symmetry in X. rewrite app_nil_r in X. apply ends_apart in X. vm_compute in X. discriminate X.
Qed.

Lemma bmain_no_file fuel os w f : Forall bit_option os -> latest sel_file os None = Some f -> files_of w f = None ->
  bmain fuel (txt "-solvenc" :: args_of os) w =
  Ok (mkRan (title ++ unlines (error_lines (txt "Could not open input file : "))) 1 (files_of w)).
Proof.
  intros H Ef Et. unfold bmain. rewrite bit_dispatch by auto. cbn [bind]. destruct (bit_fields os bdefault) as (E1 & _).
  unfold brun. rewrite E1. cbn [c_file bdefault]. rewrite Ef, Et, banner_title. reflexivity.
Qed.

Lemma bmain_no_name fuel os w : Forall bit_option os -> latest sel_file os None = None ->
  bmain fuel (txt "-solvenc" :: args_of os) w = Undef NullArg.
Proof.
  intros H Ef. unfold bmain. rewrite bit_dispatch by auto. cbn [bind]. destruct (bit_fields os bdefault) as (E1 & _).
  unfold brun. rewrite E1. cbn [c_file bdefault]. rewrite Ef. reflexivity.
Qed.

(** No file is changed. *)
Lemma bmain_files fuel args w r : bmain fuel args w = Ok r -> after r = files_of w.
Proof.
  unfold bmain. intro E. apply bind_ok in E. destruct E as ([c|] & _ & E).
  - unfold brun in E. destruct (c_file c) as [f|]; [|discriminate]. destruct (files_of w f) as [t|]; [|injection E as <-; reflexivity].
    destruct (_ && _)%bool; [discriminate|]. apply bind_ok in E. destruct E as (is & _ & E). apply bind_ok in E. destruct E as (s & _ & E).
    apply bind_ok in E. destruct E as (q & _ & E). injection E as <-. reflexivity.
  - apply bind_ok in E. destruct E as (t & _ & E). injection E as <-. reflexivity.
Qed.

Lemma menu_dispatch args : asks_menu args -> bdispatch args = Ok None.
Proof.
  intro H. unfold bdispatch. destruct args as [|a rest]; [reflexivity|]. destruct (text_eqb a (txt "-help")); [reflexivity|].
  destruct (text_eqb_spec a (txt "-solvenc")) as [->|]; [|reflexivity]. destruct (H rest eq_refl).
Qed.

Theorem two_programs args c m os w1 w2 f1 f2 t p :
  dispatch args = Ok (SolveFinite c m) -> c_file c = Some f1 -> files_of w1 f1 = Some t -> 0 <= c_clause_size c ->
  missing_return w1 = true -> (m = NonChrono -> no_repeats p) ->
  Forall bit_option os -> latest sel_file os None = Some f2 -> files_of w2 f2 = Some t ->
  0 <= latest sel_size os 3 -> latest sel_restart os 0 <= 0 -> missing_return w2 = true ->
  wf p -> fits64 p -> lone p -> fits_int p -> accepted p t -> lines_below 3000 t ->
  exists N v1 v2 r1 r2,
    (forall fuel, (N <= fuel)%nat -> main fuel args w1 = Ok r1 /\ bmain fuel (txt "-solvenc" :: args_of os) w2 = Ok r2) /\
    shows r1 v1 /\ shows r2 v2 /\
    (v1 = v2 \/ v1 = txt "TIMEOUT" /\ (exists k, late_at w1 (c_time c) k = true) \/ v2 = txt "TIMEOUT" /\ (exists k, late_at w2 (latest sel_time os 3600) k = true)).
Proof.
  intros Ed Cf T1 C0 M1 NR BO F2 T2 S2 R2 M2 W F64 LO FI A L.
  destruct (solver_run args c m w1 f1 t p) as (N1 & v1 & rest1 & d1 & u1 & b1 & e1 & n1 & r1 & Q1 & _ & _ & R1); auto.
  destruct (bmain_ok os w2 f2 t p) as (N2 & v2 & rest2 & d2 & u2 & b2 & Q2 & _ & RR2); auto.
  exists (max N1 N2), v1, v2. eexists _, _. split; [intros fuel Hf; split; [apply R1; lia|apply RR2; lia]|].
  split; [apply shows_answer|]. split; [apply shows_answer|].
  destruct Q1 as [ls a Ha _|U1|k K1]; [| |right; left; eauto].
  - destruct Q2 as [S G E H|U2|k K2]; [left; reflexivity|destruct U2; exists a; exact Ha|right; right; eauto].
  - destruct Q2 as [S G E H|U2|k K2]; [|left; reflexivity|right; right; eauto].
    destruct U1.
    assert (C : exists a, forall v, 1 <= v <= nvars p -> S v (a v) = true).
    { exists (fun v => match find (fun d => S v (Z.of_nat d)) (seq 0 64) with Some d => Z.of_nat d | None => 0 end).
      intros v Hv. destruct (E v Hv) as (d & Hd). destruct (H v d ltac:(lia) Hd) as (_ & Hd2).
      destruct (find _ (seq 0 64)) eqn:FD; [apply find_some in FD; apply FD|].
      pose proof (find_none _ _ FD (Z.to_nat d)) as X. cbv beta in X. rewrite Z2Nat.id in X by lia. rewrite Hd in X.
      assert (D64 : domsize p v <= 64).
      { unfold domsize. destruct (1 <=? v); [|lia]. destruct (nth_in_or_default (Z.to_nat (v - 1)) (doms p) 0) as [I|I0]; [apply F64; exact I|rewrite I0; lia]. }
      discriminate X. apply in_seq. lia. }
    destruct C as (a & Ca). exists a. apply G. exact Ca.
Qed.
