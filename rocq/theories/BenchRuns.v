(** * The benchmark programs: the solver on their files *)

From Coq Require Import Ascii String Permutation.
From Verif Require Import Spec Outcome State Base ModelBuild ModelSearch Observe TextSpec ModelText ModelRead CliSpec ModelCli EncodeSpec ModelEncode ModelB2f
  Text Read Encode B2f Keep ModelMenu ModelMain MainSpec MainFacts FileUnique BenchSpec ModelBench Bench Bench2 Bench3 Bench4 Bench5 Bench6.
#[local] Open Scope char_scope.
#[local] Open Scope list_scope.
#[local] Open Scope Z_scope.

Theorem ready_run args c m w f t p :
  dispatch args = Ok (SolveFinite c m) -> c_file c = Some f -> files_of w f = Some t -> 0 <= c_clause_size c -> missing_return w = true -> ready p t ->
  exists N v rest d u b e n r,
    right p (lazy_of c) (c_log c) (late_at w (c_time c)) v rest /\
    forall fuel, (N <= fuel)%nat ->
      main fuel args w =
      Ok (mkRan (solver_screen f (time1 w) (time2 w) (time3 w) ((if c_log c then logged w else []) ++ early c m v)
                   (answer_lines v d u b e (nvars p) n r ++ rest)) 0 (files_of w)).
Proof.
  intros H1 H2 H3 H4 H5 (W & NR & F & A & LB).
  destruct (solver_run args c m w f t p H1 H2 H3 H4 H5 W (fun _ => NR) F A LB) as (N & v & rest & d & u & b & e & n & r & R & _ & _ & E).
  exists N, v, rest, d, u, b, e, n, r. auto.
Qed.

Lemma pigeon_ready n : 3 <= n -> (n - 1) * (n * (n - 1)) <= 2 * int_max -> ready (qproblem n (n - 1) (pigeon_quads n (n - 1))) (pigeon_file n).
Proof.
  intros Hn Hc. pose proof (pigeon_count n (n - 1) ltac:(lia) ltac:(lia)) as C.
  assert (B : n <= int_max) by nia.
  split; [apply qwf; try lia; apply pigeon_fine|].
  split; [apply qno_repeats; intros x d y e H; apply in_pigeon_quads in H; lia|].
  assert (F : fits_int (qproblem n (n - 1) (pigeon_quads n (n - 1)))) by (apply qfits; lia).
  split; [exact F|]. split; [|apply pigeon_short; auto; lia].
  apply readable_accepted, documented_readable; [exact F|]. left. apply pigeon_documented. lia.
Qed.

Lemma queens_ready n : 2 <= n <= 800 -> ready (qproblem n n (queens_quads n)) (queens_file n).
Proof.
  intro Hn. pose proof (queens_few n ltac:(lia)) as C. assert (n <= int_max) by (unfold int_max; lia).
  split; [apply qwf; try lia; apply queens_fine|]. split; [apply qno_repeats, queens_distinct|].
  split; [apply qfits; lia|]. split; [apply queens_accepted; lia|apply queens_short; lia].
Qed.

Lemma amazon_ready n : 2 <= n <= 600 -> ready (qproblem n n (amazon_quads n)) (amazons_file n).
Proof.
  intro Hn. pose proof (amazon_bound n ltac:(lia)) as C. assert (n <= int_max) by (unfold int_max; lia).
  assert (n ^ 3 <= 600 ^ 3) by (apply Z.pow_le_mono_l; lia).
  split; [apply qwf; try lia; apply amazon_fine|]. split; [apply qno_repeats, amazon_distinct|].
  split; [apply qfits; try lia; unfold int_max; lia|]. split; [apply amazon_accepted; lia|apply amazon_short; lia].
Qed.

Lemma color_ready N skip n m es t : 0 <= n <= int_max -> 2 <= N <= int_max -> 0 <= m * N <= int_max -> N * Z.of_nat (length es) <= int_max ->
  (forall u v, In (u, v) es -> 1 <= u <= n /\ 1 <= v <= n /\ u <> v) -> graph_file n m es t -> lines_below 3000 t ->
  exists t', color_file N skip t = (t', true) /\ ready (color_problem_of N n es) t'.
Proof.
  intros Hn HN Hm HL HE G LB. destruct (color_accepted N skip n m es t Hn Hm G) as (t' & E & A & L). exists t'. split; auto.
  assert (HE' : forall u v, In (u, v) es -> 1 <= u <= n /\ 1 <= v <= n) by (intros u v Q; specialize (HE u v Q); tauto).
  split; [apply color_wf; auto; lia|]. split; [apply color_no_repeats; intros u Q; specialize (HE u u Q); tauto|].
  split; [apply color_fits; lia|]. split; auto. apply L; auto; lia.
Qed.

Lemma pigeon_unsat n : 1 <= n -> ~ satisfiable (qproblem n (n - 1) (pigeon_quads n (n - 1))).
Proof.
  intros Hn (a & M). destruct (pigeon_describes n (n - 1) ltac:(lia) ltac:(lia)) as (_ & _ & D). apply D in M. destruct M as (L & P).
  revert P. apply pigeonhole with (D := n - 1); auto. lia.
Qed.

Theorem pigeon_run args c m w f n :
  dispatch args = Ok (SolveFinite c m) -> c_file c = Some f -> files_of w f = Some (pigeon_file n) -> 0 <= c_clause_size c -> missing_return w = true ->
  3 <= n -> (n - 1) * (n * (n - 1)) <= 2 * int_max ->
  exists N v d u b e k r,
    (v = txt "UNSAT" \/ v = txt "TIMEOUT" /\ exists i, late_at w (c_time c) i = true) /\
    forall fuel, (N <= fuel)%nat ->
      main fuel args w =
      Ok (mkRan (solver_screen f (time1 w) (time2 w) (time3 w) ((if c_log c then logged w else []) ++ early c m v)
                   (answer_lines v d u b e n k r)) 0 (files_of w)).
Proof.
  intros H1 H2 H3 H4 H5 Hn Hc. destruct (ready_run _ _ _ _ _ _ _ H1 H2 H3 H4 H5 (pigeon_ready n Hn Hc)) as (N & v & rest & d & u & b & e & k & r & R & E).
  rewrite qnvars in E by lia. exists N, v, d, u, b, e, k, r.
  inversion R as [ls a M Hl E1 E2|U E1 E2|i Hi E1 E2]; subst; [exfalso; apply (pigeon_unsat n); [lia|exists a; auto]| |];
    rewrite app_nil_r in E; split; auto. right. split; eauto.
Qed.

(** The converted Boolean queens. *)
Theorem converted_run N fuel m c clk r rep s t : 1 <= N <= 200 -> boolean2finite (sat_file N) = Ok t ->
  (watch c = true -> solve_file fuel m c clk r t = Undef OobClause) /\
  (solve_file fuel m c clk r t = Ok (rep, s) -> r_verdict rep = SAT -> r_verified rep = Some false).
Proof.
  intros HN E. destruct (queens_converted N HN) as (t' & E1 & E2 & R & LB & ls & HL & ->). rewrite E2 in E. injection E as <-.
  assert (FN : 0 <= N * N <= int_max) by (unfold int_max; nia).
  pose proof (finite_fits (N * N) (sat_cnf N) FN (sat_few N ltac:(lia))) as F.
  pose proof (finite_wf (N * N) (sat_cnf N) (sat_bool N ltac:(lia)) ltac:(lia)) as W.
  split.
  - intro Wc. unfold solve_file. destruct HL as (NL & _). rewrite (blank_end_watched c _ ls W F NL LB (readable_accepted _ _ F R) Wc). reflexivity.
  - intros E V. assert (HL' : has_lines (unlines ls ++ [LF]) (ls ++ [[]])).
    { split; [|left; rewrite unlines_app; reflexivity]. intros l Hl. apply in_app_or in Hl. destruct Hl as [Hl|[<-|[]]]; [apply HL; auto|intros []]. }
    eapply blank_unverified with (l := []); [exact HL'| |apply in_or_app; right; left; auto|reflexivity|exact E|exact V].
    apply (lines_below_intro _ _ _ HL'). intros l Hl. apply in_app_or in Hl. destruct Hl as [Hl|[<-|[]]]; [apply (LB ls HL); auto|cbn; lia].
Qed.


(** The answer of the solver on the problem of a puzzle. *)
Theorem puzzle_run args c m w f t p n d good :
  describes p n d good -> ready p t -> dispatch args = Ok (SolveFinite c m) -> c_file c = Some f -> files_of w f = Some t -> 0 <= c_clause_size c ->
  missing_return w = true ->
  exists N v rest ds us bs es k r,
    (v = txt "SAT" /\ (exists a ls, (forall x, 1 <= x <= n -> 0 <= a x < d) /\ good a /\ rest = model_lines (c_log c) ls /\
        if lazy_of c then forall l, In l ls -> lit_holds a l else Permutation ls (lines_of n a)) \/
     v = txt "UNSAT" /\ rest = [] /\ (forall a, (forall x, 1 <= x <= n -> 0 <= a x < d) -> ~ good a) \/
     v = txt "TIMEOUT" /\ rest = [] /\ exists i, late_at w (c_time c) i = true) /\
    forall fuel, (N <= fuel)%nat ->
      main fuel args w =
      Ok (mkRan (solver_screen f (time1 w) (time2 w) (time3 w) ((if c_log c then logged w else []) ++ early c m v)
                   (answer_lines v ds us bs es n k r ++ rest)) 0 (files_of w)).
Proof.
  intros (D1 & D2 & D3) R H1 H2 H3 H4 H5. destruct (ready_run _ _ _ _ _ _ _ H1 H2 H3 H4 H5 R) as (N & v & rest & ds & us & bs & es & k & r & Q & E).
  rewrite D1 in E. exists N, v, rest, ds, us, bs, es, k, r. split; [|exact E].
  inversion Q as [ls a M Hl E1 E2|U E1 E2|i Hi E1 E2]; subst.
  - left. split; auto. apply D3 in M. exists a, ls. tauto.
  - right; left. split; auto. split; auto. intros a A G. apply U. exists a. apply D3. auto.
  - right; right. eauto.
Qed.
