(** * More fuel does not change a result *)

From Verif Require Import Spec Outcome State ModelCounter ModelHeur ModelLearn ModelWatch
  ModelSearch ModelBuild Base Nc Wl.

Definition below {A} (a b : outcome A) : Prop := a = OutOfFuel \/ a = b.

Lemma below_refl {A} (a : outcome A) : below a a.
Proof. right; auto. Qed.
Lemma below_none {A} (b : outcome A) : below OutOfFuel b.
Proof. left; auto. Qed.
Lemma below_bind {A B} (a b : outcome A) (f g : A -> outcome B) :
  below a b -> (forall x, below (f x) (g x)) -> below (bind a f) (bind b g).
Proof. intros [->| ->] H; [left; auto|]. destruct b; simpl; auto; apply below_refl. Qed.
Lemma below_ok {A} (a b : outcome A) x : below a b -> a = Ok x -> b = Ok x.
Proof. intros [E|E] H; congruence. Qed.

Ltac below_tac :=
  repeat first
    [ apply below_refl
    | assumption
    | solve [auto]
    | apply below_bind; [|intros ?]
    | match goal with |- below (match ?x with _ => _ end) _ => destruct x end
    | match goal with |- below (let (_, _) := ?x in _) _ => destruct x end ].

Lemma unit_propagation_below c : forall f f' s, (f <= f')%nat ->
  below (unit_propagation f c s) (unit_propagation f' c s).
Proof.
  induction f as [|f IH]; intros f' s L; [apply below_none|].
  destruct f' as [|f']; [lia|]. assert (f <= f')%nat by lia. cbn [unit_propagation].
  below_tac.
Qed.

Lemma wunit_propagation_below c : forall f f' s, (f <= f')%nat ->
  below (wunit_propagation f c s) (wunit_propagation f' c s).
Proof.
  induction f as [|f IH]; intros f' s L; [apply below_none|].
  destruct f' as [|f']; [lia|]. assert (f <= f')%nat by lia. cbn [wunit_propagation].
  below_tac.
Qed.

Lemma analyze_below c : forall f f' s ls a b tmp, (f <= f')%nat ->
  below (analyze f c s ls a b tmp) (analyze f' c s ls a b tmp).
Proof.
  induction f as [|f IH]; intros f' s ls a b tmp L; [apply below_none|].
  destruct f' as [|f']; [lia|]. assert (f <= f')%nat by lia. cbn [analyze].
  below_tac.
Qed.

Lemma nc_conflict_below c r rc s f f' : (f <= f')%nat ->
  below (nc_conflict f c r rc s) (nc_conflict f' c r rc s).
Proof.
  intro L. unfold nc_conflict. apply below_bind; [apply below_refl|intro ls].
  apply below_bind; [apply analyze_below; auto|intro x]. apply below_refl.
Qed.

Lemma wl_conflict_below c r rc s f f' : (f <= f')%nat ->
  below (wl_conflict f c r rc s) (wl_conflict f' c r rc s).
Proof.
  intro L. unfold wl_conflict. apply below_bind; [apply below_refl|intro ls].
  apply below_bind; [apply analyze_below; auto|intro x]. apply below_refl.
Qed.

Lemma nc_front_below c r rc s f f' : (f <= f')%nat ->
  below (nc_front f c r rc s) (nc_front f' c r rc s).
Proof.
  intro L. unfold nc_front. apply below_bind.
  - destruct (conflict s); [apply nc_conflict_below; auto|apply below_refl].
  - intros (s1, rc1). apply below_bind; [|intro; apply below_refl].
    destruct (ulist s1); [apply below_refl|apply unit_propagation_below; auto].
Qed.

Lemma wl_front_below c r rc s f f' : (f <= f')%nat ->
  below (wl_front f c r rc s) (wl_front f' c r rc s).
Proof.
  intro L. unfold wl_front. apply below_bind.
  - destruct (conflict s); [apply wl_conflict_below; auto|apply below_refl].
  - intros (s1, rc1). apply below_bind; [|intro; apply below_refl].
    destruct (ulist s1); [apply below_refl|apply wunit_propagation_below; auto].
Qed.

Lemma nc_iter_below c clk r rc s f f' : (f <= f')%nat ->
  below (nc_iter f c clk r rc s) (nc_iter f' c clk r rc s).
Proof.
  intro L. unfold nc_iter. destruct (check_time clk s) as (late, s1).
  destruct late; [apply below_refl|]. destruct (conflict s1 && (level s1 =? 0)); [apply below_refl|].
  apply below_bind; [apply nc_front_below; auto|intro; apply below_refl].
Qed.

Lemma wl_iter_below c clk r rc s f f' : (f <= f')%nat ->
  below (wl_iter f c clk r rc s) (wl_iter f' c clk r rc s).
Proof.
  intro L. unfold wl_iter. destruct (check_time clk s) as (late, s1).
  destruct late; [apply below_refl|]. destruct (conflict s1 && (level s1 =? 0)); [apply below_refl|].
  apply below_bind; [apply wl_front_below; auto|intro; apply below_refl].
Qed.

Lemma nc_loop_below c clk r : forall f f' rc s, (f <= f')%nat ->
  below (nc_loop f c clk r rc s) (nc_loop f' c clk r rc s).
Proof.
  induction f as [|f IH]; intros f' rc s L; [apply below_none|].
  destruct f' as [|f']; [lia|]. rewrite !nc_loop_iter.
  apply below_bind; [apply nc_iter_below; lia|]. intros [y|(rc', s')]; [apply below_refl|].
  apply IH. lia.
Qed.

Lemma wl_loop_below c clk r : forall f f' rc s, (f <= f')%nat ->
  below (wl_loop f c clk r rc s) (wl_loop f' c clk r rc s).
Proof.
  induction f as [|f IH]; intros f' rc s L; [apply below_none|].
  destruct f' as [|f']; [lia|]. rewrite !wl_loop_iter.
  apply below_bind; [apply wl_iter_below; lia|]. intros [y|(rc', s')]; [apply below_refl|].
  apply IH. lia.
Qed.

Lemma chrono_below c clk : forall f f' s lev, (f <= f')%nat ->
  below (chrono f c clk s lev) (chrono f' c clk s lev).
Proof.
  induction f as [|f IH]; intros f' s lev L; [apply below_none|].
  destruct f' as [|f']; [lia|]. assert (f <= f')%nat by lia. cbn [chrono].
  destruct (check_time clk (set_level s lev)) as ([|], s1); [apply below_refl|].
  apply below_bind.
  { destruct (ulist s1); [apply below_refl|apply unit_propagation_below; auto]. }
  intro s2. below_tac.
Qed.

Lemma run_search_below m c clk r s f f' : (f <= f')%nat ->
  below (run_search f m c clk r s) (run_search f' m c clk r s).
Proof.
  intro L. unfold run_search. destruct m; [apply chrono_below; auto|].
  destruct (watch c); [apply wl_loop_below|apply nc_loop_below]; auto.
Qed.

Lemma solve_below m c clk r p f f' : (f <= f')%nat ->
  below (solve f m c clk r p) (solve f' m c clk r p).
Proof.
  intro L. unfold solve. apply below_bind; [apply below_refl|intro s]. unfold solve_state.
  apply below_bind; [apply run_search_below; auto|intro; apply below_refl].
Qed.

(** A function of the fuel that is eventually [Ok x] is [Ok x] or [OutOfFuel] for every fuel. *)
Lemma settled {A} (f : nat -> outcome A) N x :
  (forall n n', (n <= n')%nat -> below (f n) (f n')) -> (forall n, (N <= n)%nat -> f n = Ok x) ->
  forall n, f n = OutOfFuel \/ f n = Ok x.
Proof.
  intros M E n. destruct (M n (Nat.max N n)) as [X|X]; [lia|auto|]. right. rewrite X. apply E. lia.
Qed.

Lemma settled_ok {A} (f : nat -> outcome A) N x y n :
  (forall n n', (n <= n')%nat -> below (f n) (f n')) -> (forall n, (N <= n)%nat -> f n = Ok x) ->
  f n = Ok y -> y = x.
Proof. intros M E H. destruct (settled f N x M E n); congruence. Qed.
