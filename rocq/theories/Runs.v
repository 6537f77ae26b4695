(** * Facts about whole runs, for any amount of fuel *)

From Coq Require Import Permutation.
From Verif Require Import Spec WideSpec Outcome State ModelCounter ModelHeur ModelLearn ModelWatch
  ModelSearch ModelBuild Base Solve SolveWl Fuel Observe.

(** The settings for which a search is implemented, and the inputs it is meant for. *)
Definition setting (m : mode) (c : cfg) : Prop :=
  match m with
  | Chrono => watch c = false /\ (heur c = BK \/ heur c = Lazy)
  | NonChrono => lenient c = true /\ (watch c = true -> heur c <> BK)
  end.

Definition input (m : mode) (p : problem) : Prop :=
  wf p /\ (m = NonChrono -> no_repeats p).

Record result_ok (m : mode) (c : cfg) (clk : nat -> bool) (r : Z) (p : problem) (rep : report) (s : state) : Prop := mkResult {
  re_rep : report_ok p c clk rep s;
  re_clauses : r_clauses rep = Z.of_nat (length (clauses p)) + match m with Chrono => 0 | NonChrono => r_backtracks rep end;
  re_restarts : r_restarts rep = match m with Chrono => 0 | NonChrono => if 0 <? r then r_backtracks rep / r else 0 end
}.

(** The same for domains of any size. *)
Definition wide_input (m : mode) (p : problem) : Prop :=
  usable p /\ (m = NonChrono -> no_repeats p).

Lemma input_wide m p : input m p -> wide_input m p /\ widen p = p.
Proof. intros (W & N). split; [split; auto; apply wf_usable; auto|apply widen_wf; auto]. Qed.

Lemma run_ok m c clk r p : setting m c -> wide_input m p ->
  exists N rep s, (forall fuel, (N <= fuel)%nat -> solve fuel m c clk r p = Ok (rep, s)) /\
    result_ok m c clk r p rep s.
Proof.
  intros S (W & ND). destruct m.
  - destruct S as (S1 & S2).
    destruct (solve_chrono c clk r p W S1 S2) as (N & rep & s & E & R & C & T).
    exists N, rep, s. split; auto. split; auto. lia.
  - destruct S as (S1 & S2). destruct (watch c) eqn:Ew.
    + destruct (solve_wl c clk r p W (ND eq_refl) Ew S1 (S2 eq_refl)) as (N & rep & s & E & R & C & T).
      exists N, rep, s. split; auto. split; auto.
    + destruct (solve_nc c clk r p W (ND eq_refl) Ew S1) as (N & rep & s & E & R & C & T).
      exists N, rep, s. split; auto. split; auto.
Qed.

Lemma run_any m c clk r p fuel rep s : setting m c -> wide_input m p ->
  solve fuel m c clk r p = Ok (rep, s) -> result_ok m c clk r p rep s.
Proof.
  intros S I E. destruct (run_ok m c clk r p S I) as (N & rep' & s' & E' & R).
  assert (X : (rep, s) = (rep', s')); [|congruence].
  apply (settled_ok (fun f => solve f m c clk r p) N _ _ fuel); auto.
  intros; apply solve_below; auto.
Qed.

Lemma wide_total m c clk r p : setting m c -> wide_input m p ->
  (exists N rep s, forall fuel, (N <= fuel)%nat -> solve fuel m c clk r p = Ok (rep, s)) /\
  (forall fuel u, solve fuel m c clk r p <> Undef u).
Proof.
  intros S I. destruct (run_ok m c clk r p S I) as (N & rep & s & E & _). split; [eauto|].
  intros fuel u X.
  destruct (settled (fun f => solve f m c clk r p) N (rep, s)) with (n := fuel) as [Y|Y]; try congruence; auto.
  intros; apply solve_below; auto.
Qed.

Lemma run_total m c clk r p : setting m c -> input m p ->
  (exists N rep s, forall fuel, (N <= fuel)%nat -> solve fuel m c clk r p = Ok (rep, s)) /\
  (forall fuel u, solve fuel m c clk r p <> Undef u).
Proof. intros S I. apply wide_total; auto. apply input_wide; auto. Qed.

Lemma run_sat m c clk r p fuel rep s : setting m c -> input m p ->
  solve fuel m c clk r p = Ok (rep, s) -> r_verdict rep = SAT ->
  satisfiable p /\ (exists a, legal p a /\ fits p s a) /\ forall a, legal p a -> fits p s a -> is_model p a.
Proof.
  intros S I E V. destruct (input_wide _ _ I) as (I' & WE).
  destruct (run_any m c clk r p fuel rep s S I' E) as [R _ _].
  destruct (rk_sat _ _ _ _ _ R V) as [A (a & B1 & B2) _ _ _]. rewrite WE in *. split; [exists a; auto|]. split; eauto.
Qed.

Lemma run_unsat m c clk r p fuel rep s : setting m c -> input m p ->
  solve fuel m c clk r p = Ok (rep, s) -> r_verdict rep = UNSAT -> ~ satisfiable p.
Proof.
  intros S I E V. destruct (input_wide _ _ I) as (I' & WE).
  destruct (run_any m c clk r p fuel rep s S I' E) as [R _ _]. apply R in V. try rewrite WE in V. auto.
Qed.

Lemma run_time m c clk r p fuel rep s : setting m c -> input m p ->
  solve fuel m c clk r p = Ok (rep, s) -> r_verdict rep = TIMEOUT -> exists k, clk k = true.
Proof.
  intros S I E V. destruct (input_wide _ _ I) as (I' & WE).
  destruct (run_any m c clk r p fuel rep s S I' E) as [R _ _]. apply R in V. try rewrite WE in V. auto.
Qed.

Lemma run_iff m c clk r p fuel rep s : setting m c -> input m p ->
  solve fuel m c clk r p = Ok (rep, s) -> r_verdict rep <> TIMEOUT ->
  (r_verdict rep = SAT <-> satisfiable p) /\ (r_verdict rep = UNSAT <-> ~ satisfiable p).
Proof.
  intros S I E V.
  pose proof (run_sat m c clk r p fuel rep s S I E) as A.
  pose proof (run_unsat m c clk r p fuel rep s S I E) as B.
  destruct (r_verdict rep).
  - destruct (A eq_refl) as (X & _). split; split; auto; try discriminate. intro; contradiction.
  - congruence.
  - specialize (B eq_refl). split; split; auto; try discriminate. intro; contradiction.
Qed.

Lemma run_agree m1 c1 clk1 r1 fuel1 rep1 s1 m2 c2 clk2 r2 fuel2 rep2 s2 p :
  setting m1 c1 -> setting m2 c2 -> wf p -> no_repeats p ->
  solve fuel1 m1 c1 clk1 r1 p = Ok (rep1, s1) -> solve fuel2 m2 c2 clk2 r2 p = Ok (rep2, s2) ->
  r_verdict rep1 <> TIMEOUT -> r_verdict rep2 <> TIMEOUT -> r_verdict rep1 = r_verdict rep2.
Proof.
  intros S1 S2 W ND E1 E2 V1 V2.
  destruct (run_iff m1 c1 clk1 r1 p fuel1 rep1 s1 S1) as (A1 & B1); auto; [split; auto|].
  destruct (run_iff m2 c2 clk2 r2 p fuel2 rep2 s2 S2) as (A2 & B2); auto; [split; auto|].
  destruct (r_verdict rep1), (r_verdict rep2); auto; try congruence; exfalso; tauto.
Qed.

Lemma filter_all_lines p a : legal p a ->
  filter (fun l => lval l <? domsize p (lvar l)) (lines_of (nvars p) a) = lines_of (nvars p) a.
Proof.
  intro L.
  assert (G : forall ls : list lit, (forall l, In l ls -> lval l < domsize p (lvar l)) ->
                filter (fun l => lval l <? domsize p (lvar l)) ls = ls).
  { induction ls as [|x ls IH]; intro H; auto. cbn [filter].
    destruct (Z.ltb_spec (lval x) (domsize p (lvar x))) as [_|F].
    - rewrite IH; auto. intros l Hl. apply H. right; auto.
    - specialize (H x (or_introl eq_refl)). lia. }
  apply G. intros l Hl. unfold lines_of in Hl. apply in_map_iff in Hl. destruct Hl as (v & <- & Hv).
  cbn [lvar lval]. apply in_zrange in Hv. apply L. unfold nvars in *. lia.
Qed.

Lemma run_model m c clk r p fuel rep s : setting m c -> input m p -> heur c <> Lazy ->
  solve fuel m c clk r p = Ok (rep, s) -> r_verdict rep = SAT ->
  exists a, is_model p a /\ Permutation (r_model rep) (lines_of (nvars p) a).
Proof.
  intros S I NL E V. destruct (input_wide _ _ I) as (I' & WE).
  destruct (run_any m c clk r p fuel rep s S I' E) as [R _ _].
  destruct (sr_total _ _ _ _ (rk_sat _ _ _ _ _ R V) NL) as (a & M & P). rewrite WE in M. exists a. split; auto.
  rewrite filter_all_lines in P; auto. apply M.
Qed.

Lemma run_lazy m c clk r p fuel rep s : setting m c -> input m p ->
  solve fuel m c clk r p = Ok (rep, s) -> r_verdict rep = SAT ->
  exists a, is_model p a /\ forall l, In l (r_model rep) -> lit_holds a l.
Proof.
  intros S I E V. destruct (input_wide _ _ I) as (I' & WE).
  destruct (run_any m c clk r p fuel rep s S I' E) as [R _ _].
  destruct (rk_sat _ _ _ _ _ R V) as [A (a & B1 & B2) _ D _ _]. exists a. rewrite WE in *. split; auto.
Qed.

Lemma run_order m c clk r p fuel rep s : setting m c -> input m p ->
  solve fuel m c clk r p = Ok (rep, s) -> r_verdict rep = SAT -> in_order s (r_model rep).
Proof.
  intros S I E V. destruct (input_wide _ _ I) as (I' & WE).
  destruct (run_any m c clk r p fuel rep s S I' E) as [R _ _].
  apply (sr_order _ _ _ _ (rk_sat _ _ _ _ _ R V)).
Qed.

Lemma run_check m c clk r p fuel rep s : setting m c -> input m p ->
  solve fuel m c clk r p = Ok (rep, s) -> r_verdict rep = SAT -> r_verified rep = Some true.
Proof.
  intros S I E V. destruct (input_wide _ _ I) as (I' & WE).
  destruct (run_any m c clk r p fuel rep s S I' E) as [R _ _].
  apply (sr_check _ _ _ _ (rk_sat _ _ _ _ _ R V)).
Qed.

Lemma run_clock m c clk r p : setting m c -> input m p -> (forall k, clk k = false) ->
  exists N rep s, (forall fuel, (N <= fuel)%nat -> solve fuel m c clk r p = Ok (rep, s)) /\
    (r_verdict rep = SAT \/ r_verdict rep = UNSAT).
Proof.
  intros S I K. destruct (run_ok m c clk r p S (proj1 (input_wide _ _ I))) as (N & rep & s & E & [R _ _]).
  exists N, rep, s. split; auto. destruct (r_verdict rep) eqn:V; auto.
  destruct (rk_time _ _ _ _ _ R V) as (k & Hk). congruence.
Qed.

Lemma run_stats m c clk r p fuel rep s : setting m c -> input m p ->
  solve fuel m c clk r p = Ok (rep, s) ->
  r_variables rep = nvars p /\
  r_clauses rep = Z.of_nat (length (clauses p)) + match m with Chrono => 0 | NonChrono => r_backtracks rep end.
Proof.
  intros S I E. destruct (run_any m c clk r p fuel rep s S (proj1 (input_wide _ _ I)) E) as [R C _]. split; auto. apply R.
Qed.

(** ** Domains of fewer than two values *)

Lemma wide_iff m c clk r p fuel rep s : setting m c -> wide_input m p ->
  solve fuel m c clk r p = Ok (rep, s) -> r_verdict rep <> TIMEOUT ->
  (r_verdict rep = SAT <-> satisfiable (widen p)) /\ (r_verdict rep = UNSAT <-> ~ satisfiable (widen p)).
Proof.
  intros S I E V. destruct (run_any m c clk r p fuel rep s S I E) as [R _ _].
  assert (A : r_verdict rep = SAT -> satisfiable (widen p)).
  { intro Vs. destruct (rk_sat _ _ _ _ _ R Vs) as [A (a & B1 & B2) _ _ _ _]. exists a; auto. }
  pose proof (rk_unsat _ _ _ _ _ R) as B.
  destruct (r_verdict rep).
  - specialize (A eq_refl). split; split; auto; try discriminate. intro; contradiction.
  - congruence.
  - specialize (B eq_refl). split; split; auto; try discriminate. intro; contradiction.
Qed.

Lemma wide_model m c clk r p fuel rep s : setting m c -> wide_input m p -> heur c <> Lazy ->
  solve fuel m c clk r p = Ok (rep, s) -> r_verdict rep = SAT ->
  r_verified rep = Some true /\
  exists a, is_model (widen p) a /\
    Permutation (r_model rep) (filter (fun l => lval l <? domsize p (lvar l)) (lines_of (nvars p) a)).
Proof.
  intros S I NL E V. destruct (run_any m c clk r p fuel rep s S I E) as [R _ _].
  pose proof (rk_sat _ _ _ _ _ R V) as X. split; [apply X|apply (sr_total _ _ _ _ X NL)].
Qed.

Lemma widen_more p a : usable p -> is_model p a -> is_model (widen p) a.
Proof.
  intros (W & _) (L & C). split; auto. intros x Hx. rewrite nvars_widen in Hx. rewrite domsize_widen by auto.
  specialize (L x Hx). lia.
Qed.

Lemma filter_length_all {A} (f : A -> bool) (ls : list A) : length (filter f ls) = length ls -> forall x, In x ls -> f x = true.
Proof.
  induction ls as [|y ls IH]; intros E x H; [destruct H|]. cbn [filter] in E.
  assert (L : forall l : list A, (length (filter f l) <= length l)%nat).
  { induction l as [|z l IHl]; auto. cbn [filter]. destruct (f z); cbn [length]; lia. }
  destruct (f y) eqn:Fy; cbn [length] in E.
  - destruct H as [<-|H]; auto.
  - specialize (L ls). lia.
Qed.

Lemma wide_unsat m c clk r p fuel rep s : setting m c -> wide_input m p ->
  solve fuel m c clk r p = Ok (rep, s) -> r_verdict rep = UNSAT -> ~ satisfiable p.
Proof.
  intros S I E V (a & M). destruct (run_any m c clk r p fuel rep s S I E) as [R _ _].
  apply (rk_unsat _ _ _ _ _ R V). exists a. apply widen_more; auto. apply I.
Qed.

(** Every variable has a line: the lines are a model. *)
Lemma wide_full m c clk r p fuel rep s : setting m c -> wide_input m p -> heur c <> Lazy ->
  solve fuel m c clk r p = Ok (rep, s) -> r_verdict rep = SAT -> Z.of_nat (length (r_model rep)) = nvars p ->
  exists a, is_model p a /\ Permutation (r_model rep) (lines_of (nvars p) a).
Proof.
  intros S I NL E V Len. destruct (wide_model m c clk r p fuel rep s S I NL E V) as (_ & a & M & P).
  assert (LL : length (lines_of (nvars p) a) = Z.to_nat (nvars p)).
  { unfold lines_of, numbers. rewrite !map_length, seq_length. auto. }
  assert (X : forall l, In l (lines_of (nvars p) a) -> (lval l <? domsize p (lvar l)) = true).
  { apply filter_length_all. rewrite <- (Permutation_length P), LL. lia. }
  assert (L : legal p a).
  { intros v Hv. destruct M as (M & _). specialize (M v). rewrite nvars_widen in M.
    assert (Y : In (mkLit v (a v) true) (lines_of (nvars p) a)).
    { unfold lines_of, numbers. apply in_map_iff. exists v. split; auto. apply in_map_iff.
      exists (Z.to_nat (v - 1)). split; [lia|]. apply in_seq. lia. }
    apply X in Y. cbn [lvar lval] in Y. apply Z.ltb_lt in Y. specialize (M Hv). lia. }
  exists a. split; [split; auto; apply M|]. rewrite filter_all_lines in P; auto.
Qed.

Lemma run_restarts c clk r p fuel rep s : setting NonChrono c -> wf p -> no_repeats p ->
  solve fuel NonChrono c clk r p = Ok (rep, s) ->
  r_restarts rep = if 0 <? r then r_backtracks rep / r else 0.
Proof.
  intros S W N E.
  apply (re_restarts _ _ _ _ _ _ _ (run_any NonChrono c clk r p fuel rep s S (conj (wf_usable p W) (fun _ => N)) E)).
Qed.

(** The self-check in any state whose clauses mention declared atoms only. *)
Lemma check_exact s : DOM (tr s) 0 = 0 ->
  (forall C l, In C (cl s) -> In l C -> 1 <= lvar l <= NV (tr s) /\ 0 <= lval l < DOM (tr s) (lvar l)) ->
  exists b, verify_model s = Ok b /\
    (b = true <-> forall C, In C (cl s) -> exists l, In l C /\
       ASG (tr s) (lvar l) (lval l) = if leq l then Pos else Neg).
Proof.
  intros D0 W. destruct (verify_ok s D0) as (b & E & P).
  { intros C l HC Hl. apply (W C l HC Hl). }
  exists b. split; auto. rewrite P. unfold Choose.all_sat. split; intros H C HC; destruct (H C HC) as (l & Hl & T); exists l; split; auto.
  - apply Trail.lit_true_asg; auto.
  - apply Trail.lit_true_asg; auto.
Qed.
