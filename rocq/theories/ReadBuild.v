(** * The theory built from a problem file *)

From Coq Require Import Ascii String.
From Verif Require Import Spec WideSpec Outcome State ModelBuild Init ModelSearch Runs Fuel TextSpec ModelText ModelRead Text Read CliSpec ModelCli Cli.
#[local] Open Scope Z_scope.

Theorem build_accepted c p t : wf p -> fits_int p -> accepted p t -> lines_below 3000 t ->
  exists s, build_file c t = Ok s /\ NV (tr s) = nvars p /\ (forall v, DOM (tr s) v = domsize p v) /\ cl s = clauses p.
Proof.
  intros W F D L. unfold build_file. rewrite (read_accepted p t W F D L). cbn [bind].
  destruct (build_ok c p W) as (t0 & s & E & (S1 & S2 & _) & B). exists s. split; auto.
  rewrite (bu_tr _ _ _ _ B). repeat split; auto. apply (bu_cl _ _ _ _ B).
Qed.

Theorem build_documented c p t : wf p -> fits_int p -> documented p t -> lines_below 3000 t ->
  exists s, build_file c t = Ok s /\ NV (tr s) = nvars p /\ (forall v, DOM (tr s) v = domsize p v) /\ cl s = clauses p.
Proof. intros W F D. apply build_accepted; auto. apply readable_accepted, documented_readable; auto. Qed.

(** ** From the command line to the answer *)

Lemma solve_finite_accepted fuel len clk fs c m f t p : wf p -> fits_int p -> accepted p t -> lines_below 3000 t ->
  c_file c = Some f -> fs f = Some t -> 0 <= c_clause_size c ->
  solve_finite fuel len clk fs c m =
  let* q := solve fuel m (mkCfg (c_heur c) (c_watch c) len) clk (c_restarts c) p in let (rep, s) := q in Ok (Solved rep s).
Proof.
  intros W F D L Ef Et Hs. unfold solve_finite. rewrite Ef, Et.
  rewrite (proj2 (Z.ltb_ge (c_clause_size c) 0) Hs). cbn [andb]. rewrite (solve_accepted _ _ _ _ _ p t) by auto. reflexivity.
Qed.

Theorem end_to_end args c m clk fs f t p :
  dispatch args = Ok (SolveFinite c m) -> c_file c = Some f -> fs f = Some t -> 0 <= c_clause_size c ->
  wf p -> (m = NonChrono -> no_repeats p) -> fits_int p -> accepted p t -> lines_below 3000 t ->
  (exists N rep s, (forall fuel, (N <= fuel)%nat -> solve_finite fuel true clk fs c m = Ok (Solved rep s)) /\
     (r_verdict rep = SAT -> satisfiable p) /\ (r_verdict rep = UNSAT -> ~ satisfiable p) /\
     (r_verdict rep = TIMEOUT -> exists k, clk k = true)) /\
  (forall fuel u, solve_finite fuel true clk fs c m <> Undef u).
Proof.
  intros Ed Ef Et Hs W NR F D L. pose proof (dispatch_setting args c m true Ed eq_refl) as ST.
  assert (IN : input m p) by (split; auto).
  set (cf := mkCfg (c_heur c) (c_watch c) true) in *.
  assert (EQ : forall fuel, solve_finite fuel true clk fs c m =
            let* q := solve fuel m cf clk (c_restarts c) p in let (rep, s) := q in Ok (Solved rep s)).
  { intro fuel. apply (solve_finite_accepted fuel true clk fs c m f t p); auto. }
  destruct (run_total m cf clk (c_restarts c) p ST IN) as ((N & rep & s & H) & U). split.
  - exists N, rep, s. split; [|split; [|split]].
    + intros fuel Hf. rewrite EQ, H by auto. reflexivity.
    + intro V. apply (run_sat m cf clk (c_restarts c) p N rep s ST IN (H N (le_n N)) V).
    + intro V. apply (run_unsat m cf clk (c_restarts c) p N rep s ST IN (H N (le_n N)) V).
    + intro V. apply (run_time m cf clk (c_restarts c) p N rep s ST IN (H N (le_n N)) V).
  - intros fuel u. rewrite EQ. intro E. destruct (solve fuel m cf clk (c_restarts c) p) as [(rep', s')|u'|] eqn:Es; try discriminate.
    apply (U fuel u'); auto.
Qed.
