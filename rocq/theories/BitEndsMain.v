(** * The second program: what a run that ends has shown *)

From Coq Require Import Ascii String Permutation.
From Verif Require Import Spec Outcome State ModelSearch ModelBuild Base TextSpec ModelText ModelRead Text Read
  CliSpec ModelCli Cli ModelGen ModelMenu ModelMain MainSpec MainFacts MainMore Pipe ModelBit BitSpec BitBuild BitSafe BitRuns ModelBitMain BitMainSpec
  BitMainFacts BitEnds.
#[local] Open Scope Z_scope.

Theorem bmain_ends fuel os w f t p r :
  Forall bit_option os -> latest sel_file os None = Some f -> files_of w f = Some t -> 0 <= latest sel_size os 3 ->
  wf p -> fits64 p -> fits_int p -> accepted p t -> lines_below 3000 t ->
  bmain fuel (txt "-solvenc" :: args_of os) w = Ok r ->
  exists v d u b n m k rest,
    r = mkRan (solver_screen f (time1 w) (time2 w) (time3 w)
                 ((if latest sel_verbose os false then logged w else []) ++ (if text_eqb v (txt "UNSAT") then txt "UNSAT" ++ [LF] else []))
                 (answer_lines v d u b 0 n m k ++ rest)) 0 (files_of w) /\
    (k = 0 -> right_sets p (latest sel_verbose os false) (late_at w (latest sel_time os 3600)) v rest /\
              n = nvars p /\ m = Z.of_nat (length (clauses p)) + b /\ 0 <= b).
Proof.
  intros H Ef Et Hs W FI F D L R. pose proof (bit_dispatch os H) as Ed. pose proof (bit_model _ _ Ed) as M.
  destruct (bit_fields os bdefault) as (E1 & E2 & E3 & E4 & E5 & E6). cbn in E1, E2, E3, E4, E5, E6.
  set (c := fold_left bit_apply os bdefault) in *.
  unfold bmain in R. rewrite Ed in R. cbn [bind] in R.
  rewrite (brun_file fuel w c f t p) in R; auto; [|congruence|lia|apply read_accepted; auto].
  apply bind_ok in R. destruct R as ((rep, s) & R & Q).
  exists (word (br_verdict rep)), (br_decisions rep), (br_units rep), (br_backtracks rep), (br_variables rep), (br_clauses rep),
    (br_restarts rep), (brest_lines (c_log c) rep).
  split.
  - assert (QQ : mkRan (bscreen w c f (fst (rep, s))) 0 (files_of w) = r) by congruence. rewrite <- QQ.
    unfold bscreen. cbn [fst]. rewrite E5. reflexivity.
  - intro K. destruct (bit_ends p fuel _ _ _ rep s W FI R K) as (V & V1 & _ & V3 & V4 & _).
    split; [|auto]. rewrite <- E5, <- E2. apply right_lines; [exact V|].
    destruct (br_verdict rep) eqn:V0; [apply V| |]; apply (checked_if_sat _ _ _ _ _ _ _ R); congruence.
Qed.
