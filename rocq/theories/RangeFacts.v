(** * Proofs of the theorems about the range of the counters *)

From Verif Require Import Spec WideSpec Outcome State ModelSearch ModelBuild TextSpec Base Trail Propagate Nc WatchProp Wl Chrono
  Steps Reach StepSpec TrailSpec TrailFacts Runs StatSpec Frame Stats StatRuns RangeSpec Range.

Lemma counts m c clk r p fuel rep s :
  setting m c -> input m p -> solve fuel m c clk r p = Ok (rep, s) ->
  0 <= r_decisions rep /\ 0 <= r_units rep /\ 0 <= r_entails rep /\
  r_decisions rep + r_units rep + r_entails rep <= (r_backtracks rep + 1) * values p /\
  0 <= r_restarts rep <= r_backtracks rep /\
  r_backtracks rep <= Z.of_nat (tick s) /\ r_decisions rep <= Z.of_nat (tick s).
Proof.
  intros St In E. destruct (run_bounded m c clk r p fuel rep s St In E) as ([B1 B2 B3] & B4 & B5 & B6 & B7 & B8).
  destruct (solve_shows _ _ _ _ _ _ _ _ E) as (s0 & _ & _ & (-> & -> & -> & -> & ->)). unfold tot in B1. lia.
Qed.

Lemma counters_int m c clk r p fuel rep s :
  setting m c -> input m p -> solve fuel m c clk r p = Ok (rep, s) ->
  (Z.of_nat (tick s) + 1) * values p <= int_max -> Z.of_nat (tick s) <= int_max ->
  forall x, In x (counters s) -> 0 <= x <= int_max.
Proof.
  intros St In E H T x Hx. pose proof In as (W & _). pose proof (values_nonneg p W) as V.
  destruct (run_bounded m c clk r p fuel rep s St In E) as ([B1 B2 B3] & B4 & B5 & B6 & B7 & B8).
  assert ((backtracks s + 1) * values p <= (Z.of_nat (tick s) + 1) * values p) by (apply Z.mul_le_mono_nonneg_r; lia).
  assert (values p <= (Z.of_nat (tick s) + 1) * values p) by nia.
  unfold tot in B1. unfold counters in Hx. cbn in Hx. intuition subst; lia.
Qed.

Lemma index_short p s : wf p -> stacked p s -> forall f, In f (DST (tr s)) -> 0 <= AIDX (tr s) (lvar f) (lval f) < values p.
Proof.
  intros W S f Hf. pose proof (stack_short p s W S) as L. apply in_split in Hf. destruct Hf as (pre & post & E).
  destruct (st_index _ _ S pre f post E) as (-> & _). rewrite E, app_length in L. cbn [length] in L. lia.
Qed.

Lemma rs_next r rc s : rs_ok r rc s ->
  (0 < r -> backtracks s < rc <= backtracks s + r) /\ (r <= 0 -> rc = r).
Proof. intros (A & B). split; intro H; [destruct (A H) as (A1 & A2); lia|apply B; auto]. Qed.

Lemma nc_bounds c clk r p rc s :
  wf p -> no_repeats p -> watch c = false -> lenient c = true -> nc_reached c clk r p rc s ->
  0 <= level s <= values p /\ Z.of_nat (length (DST (tr s))) <= values p /\
  (forall f, In f (DST (tr s)) -> 0 <= AIDX (tr s) (lvar f) (lval f) < values p) /\
  decisions s + units s + entails s <= (backtracks s + 1) * values p /\
  0 <= restarts s <= backtracks s /\ (0 < r -> backtracks s < rc <= backtracks s + r) /\ (r <= 0 -> rc = r).
Proof.
  intros W ND Hw Le H. destruct (nc_reached_shape c clk r p rc s W ND Hw Le H) as (S & _ & X & _).
  destruct (nc_reached_ok c clk r p rc s W ND Hw Le H) as (t0 & ST & I & RS & _).
  pose proof (cs_lev _ (ni_CS _ _ _ I)) as L0. pose proof (level_short p s W S X L0) as L1.
  pose proof (stack_short p s W S) as L2. destruct (nc_reached_ranged c clk r p rc s W ND Hw Le H) as (R1 & R2).
  destruct (nc_ents p t0 s W ST I) as (_ & N2). unfold tot in R1.
  split; [lia|]. split; auto. split; [apply index_short; auto|]. split; [lia|].
  split; [apply (rs_bounds r rc s RS); lia|]. apply rs_next; auto.
Qed.

Lemma wl_bounds c clk r p rc s :
  wf p -> no_repeats p -> watch c = true -> lenient c = true -> heur c <> BK -> wl_reached c clk r p rc s ->
  0 <= level s <= values p /\ Z.of_nat (length (DST (tr s))) <= values p /\
  (forall f, In f (DST (tr s)) -> 0 <= AIDX (tr s) (lvar f) (lval f) < values p) /\
  decisions s + units s + entails s <= (backtracks s + 1) * values p /\
  0 <= restarts s <= backtracks s /\ (0 < r -> backtracks s < rc <= backtracks s + r) /\ (r <= 0 -> rc = r).
Proof.
  intros W ND Hw Le NB H. destruct (wl_reached_shape c clk r p rc s W ND Hw Le NB H) as (S & _ & X & _).
  destruct (wl_reached_ok c clk r p rc s W ND Hw Le NB H) as (t0 & ST & I & RS).
  pose proof (wc_lev _ (wi_CS _ _ _ I)) as L0. pose proof (level_short p s W S X L0) as L1.
  pose proof (stack_short p s W S) as L2. destruct (wl_reached_ranged c clk r p rc s W ND Hw Le NB H) as (R1 & R2).
  destruct (wl_ents p t0 s W ST I) as (_ & N2). unfold tot in R1.
  split; [lia|]. split; auto. split; [apply index_short; auto|]. split; [lia|].
  split; [apply (rs_bounds r rc s RS); lia|]. apply rs_next; auto.
Qed.
