(** * The second program: what it shows in every run, with or without restarts *)

From Coq Require Import Ascii String Permutation.
From Verif Require Import Spec Outcome State ModelSearch ModelBuild Base TextSpec ModelText ModelRead Text Read
  CliSpec ModelCli Cli ModelGen ModelMenu ModelMain MainSpec MainFacts MainMore Pipe ModelBit BitSpec BitBuild BitSafe BitRuns ModelBitMain BitMainSpec
  BitMainFacts BitEnds BitClauses.
#[local] Open Scope Z_scope.

Theorem bmain_counts fuel os w f t p r :
  Forall bit_option os -> latest sel_file os None = Some f -> files_of w f = Some t -> 0 <= latest sel_size os 3 ->
  wf p -> fits64 p -> fits_int p -> accepted p t -> lines_below 3000 t ->
  bmain fuel (txt "-solvenc" :: args_of os) w = Ok r ->
  exists v d u b rest, 0 <= b /\
    r = mkRan (solver_screen f (time1 w) (time2 w) (time3 w)
                 ((if latest sel_verbose os false then logged w else []) ++ (if text_eqb v (txt "UNSAT") then txt "UNSAT" ++ [LF] else []))
                 (answer_lines v d u b 0 (nvars p) (Z.of_nat (length (clauses p)) + b)
                    (if 0 <? latest sel_restart os 0 then b / latest sel_restart os 0 else 0) ++ rest)) 0 (files_of w).
Proof.
  intros H Ef Et Hs W FI F D L R. pose proof (bit_dispatch os H) as Ed. pose proof (bit_model _ _ Ed) as M.
  destruct (bit_fields os bdefault) as (E1 & E2 & E3 & E4 & E5 & E6). cbn in E1, E2, E3, E4, E5, E6.
  set (c := fold_left bit_apply os bdefault) in *.
  unfold bmain in R. rewrite Ed in R. cbn [bind] in R.
  rewrite (brun_file fuel w c f t p) in R; auto; [|congruence|lia|apply read_accepted; auto].
  apply bind_ok in R. destruct R as ((rep, s) & R & Q).
  destruct (bit_report p fuel _ _ _ rep s W FI R) as (_ & V1 & V2 & V3 & V4 & _).
  exists (word (br_verdict rep)), (br_decisions rep), (br_units rep), (br_backtracks rep), (brest_lines (c_log c) rep).
  split; [auto|].
  assert (QQ : mkRan (bscreen w c f (fst (rep, s))) 0 (files_of w) = r) by congruence. rewrite <- QQ.
  unfold bscreen. cbn [fst]. rewrite E5, <- V1, <- V2. replace (latest sel_restart os 0) with (c_restarts c) by auto.
  rewrite <- V4. reflexivity.
Qed.
