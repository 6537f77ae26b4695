(** * More fuel does not change the result of the first version *)

From Verif Require Import Spec Outcome State ModelCounter ModelSearch ModelBuild ModelOrig OrigSim OrigProp OrigChrono OrigSpec OrigInit OrigSolve OrigPtr OrigCid OrigNC.
#[local] Open Scope Z_scope.

Lemma units_mono f o r : o_units f o = r -> r <> OutOfFuel -> forall f', (f <= f')%nat -> o_units f' o = r.
Proof. unfold o_units. destruct (ulist (ost o)); auto. apply propagate_mono. Qed.

Lemma chrono_mono clk f : forall o lev r, o_chrono f clk o lev = r -> r <> OutOfFuel ->
  forall f', (f <= f')%nat -> o_chrono f' clk o lev = r.
Proof.
  induction f as [|f IH]; intros o lev r E N f' L; [simpl in E; congruence|].
  destruct f' as [|f']; [lia|]. cbn [o_chrono] in *. cbv zeta in *.
  destruct (o_check_sat _); auto. destruct (o_time clk _) as (late & o1). destruct late; auto.
  destruct (o_units (S f) o1) as [o2|u|] eqn:U; cbn [bind] in E; [| |congruence];
    rewrite (units_mono _ _ _ U ltac:(discriminate) (S f') L); cbn [bind]; auto.
  destruct (o_check_sat o2); auto. destruct (o_time clk o2) as (late & o3). destruct late; auto.
  destruct (conflict (ost o3)); auto. destruct (o_choose o3) as (o4 & [l|]); auto.
  destruct (o_decide o4 l) as [o5|u|]; cbn [bind] in *; auto.
  destruct (o_chrono f clk o5 _) as [(v & o6)|u|] eqn:C; cbn [bind] in E; [| |congruence];
    rewrite (IH _ _ _ C ltac:(discriminate) f' ltac:(lia)); cbn [bind]; auto.
  destruct v; auto. destruct (level (ost o6) =? 0); auto.
  destruct (o_reduce o6 (neg l)) as [o7|u|]; cbn [bind] in *; auto.
  apply IH; auto. lia.
Qed.

Lemma loop_mono clk f : forall o r, o_loop f clk o = r -> r <> OutOfFuel ->
  forall f', (f <= f')%nat -> o_loop f' clk o = r.
Proof.
  induction f as [|f IH]; intros o r E N f' L; [simpl in E; congruence|].
  destruct f' as [|f']; [lia|]. cbn [o_loop] in *. cbv zeta in *.
  destruct (o_check_sat _); auto. destruct (o_time clk _) as (late & o1). destruct late; auto.
  destruct (ulist (ost o1)) as [|n rest].
  - destruct (conflict (ost o1)).
    + destruct (level (ost o1) =? 0); auto.
      destruct (o_conflict o1) as [o2|u|]; cbn [bind] in *; auto. apply IH; auto. lia.
    + destruct (o_choose o1) as (o4 & [l|]); [|apply IH; auto; lia].
      destruct (o_decide o4 l) as [o5|u|]; cbn [bind] in *; auto. apply IH; auto. lia.
  - destruct (o_propagate (S f) o1) as [o2|u|] eqn:U; cbn [bind] in E; [| |congruence];
      rewrite (propagate_mono _ _ _ U ltac:(discriminate) (S f') L); cbn [bind]; auto.
    destruct (o_check_sat o2); auto. destruct (o_time clk o2) as (late & o3). destruct late; auto.
    apply IH; auto. lia.
Qed.

Lemma o_solve_mono f m e clk p r : o_solve f m e clk p = r -> r <> OutOfFuel ->
  forall f', (f <= f')%nat -> o_solve f' m e clk p = r.
Proof.
  unfold o_solve. intros E N f' L. destruct (o_build e (items_of p)) as [o|u|]; cbn [bind] in *; auto.
  destruct (o_search f m clk _) as [q|u|] eqn:S; cbn [bind] in E; [| |congruence].
  all: assert (S' : o_search f' m clk (o_check_unit o) = o_search f m clk (o_check_unit o))
    by (rewrite S; destruct m; [eapply chrono_mono|eapply loop_mono]; eauto; discriminate).
  all: rewrite S', S; exact E.
Qed.

(** ** Reports *)

Lemma chrono_any fuel e clk p rep : wf p -> o_solve fuel Chrono e clk p = Ok rep ->
  exists N, forall f, (N <= f)%nat -> o_solve f Chrono PIgnore clk p = Ok rep.
Proof.
  intros W E. exists fuel. intros f L. pose proof (solve_ptr fuel Chrono e clk p) as P. rewrite E in P.
  simpl in P. eapply o_solve_mono; eauto. discriminate.
Qed.

Definition chrono_good (p : problem) (clk : nat -> bool) (rep : oreport) : Prop :=
  (or_verdict rep = SAT -> exists b, or_verified rep = Some b /\ (b = true -> satisfiable p) /\
     (or_message rep = false -> b = true)) /\
  (or_verdict rep <> SAT -> or_verified rep = None) /\
  (or_verdict rep = TIMEOUT -> clock_rang clk) /\
  (or_verdict rep = UNSAT -> or_decisions rep = 0 -> ~ satisfiable p) /\
  (forall v d, first_choice p v d -> no_units p -> clauses p <> [] -> literals p <= 1000000000 ->
     (or_verdict rep = UNSAT -> forall a, is_model p a -> a v <> d) /\
     (or_verified rep = Some true -> exists a, is_model p a /\ a v = d)) /\
  (or_verdict rep = UNSAT -> satisfiable p ->
     exists v d, 1 <= v <= nvars p /\ 0 <= d < domsize p v /\ forall a, is_model p a -> a v <> d) /\
  or_variables rep = nvars p /\ or_clauses rep = Z.of_nat (length (clauses p)).

Lemma chrono_rep fuel e clk p rep : wf p -> o_solve fuel Chrono e clk p = Ok rep -> chrono_good p clk rep.
Proof.
  intros W E. destruct (chrono_any _ _ _ _ _ W E) as (N & E1).
  destruct (o_solve_chrono clk p W) as (N' & rep' & E2 & G).
  specialize (E2 (N + N')%nat ltac:(lia)). rewrite (E1 (N + N')%nat) in E2 by lia. injection E2 as ->. exact G.
Qed.

Lemma nc_rep fuel e clk p rep : wf p -> o_solve fuel NonChrono e clk p = Ok rep -> nc_good p clk rep.
Proof.
  intros W E. pose proof (solve_ptr fuel NonChrono e clk p) as P. rewrite E in P. simpl in P.
  destruct (o_solve_nc clk p W) as (G & _). destruct (G fuel) as [G1|G1]; rewrite P in G1; [discriminate|exact G1].
Qed.

Lemma chrono_ends clk p : wf p -> exists N rep, forall fuel e, (N <= fuel)%nat ->
  o_solve fuel Chrono e clk p = Ok rep \/
  o_solve fuel Chrono e clk p = Undef Uninit \/ o_solve fuel Chrono e clk p = Undef BadPtr.
Proof.
  intro W. destruct (o_solve_chrono clk p W) as (N & rep & E & _). exists N, rep. intros fuel e L.
  pose proof (solve_ptr fuel Chrono e clk p) as P. rewrite (E _ L) in P.
  destruct (o_solve fuel Chrono e clk p) as [a|u|]; simpl in P; [left; congruence| |discriminate].
  destruct P as [->|[->|P]]; [auto|auto|discriminate].
Qed.

Lemma nc_outcome fuel e clk p : wf p ->
  match o_solve fuel NonChrono e clk p with
  | Ok _ | OutOfFuel => True
  | Undef u => u = OobStack \/ u = Uninit \/ u = BadPtr
  end.
Proof.
  intro W. pose proof (solve_ptr fuel NonChrono e clk p) as P.
  destruct (o_solve_nc clk p W) as (G & _). specialize (G fuel).
  destruct (o_solve fuel NonChrono e clk p) as [a|u|]; auto. simpl in P.
  destruct P as [->|[->|P]]; auto. rewrite P in G. destruct G as [G|G]; [discriminate|auto].
Qed.
Lemma nc_sat fuel e clk p rep : wf p -> o_solve fuel NonChrono e clk p = Ok rep -> or_verdict rep = SAT ->
  or_verified rep = Some true /\ satisfiable p.
Proof. intros W E V. destruct (nc_rep _ _ _ _ _ W E) as (H & _). rewrite V in H. exact H. Qed.
Lemma nc_other fuel e clk p rep : wf p -> o_solve fuel NonChrono e clk p = Ok rep ->
  (or_verdict rep = UNSAT -> or_decisions rep = 0 -> ~ satisfiable p) /\
  (or_verdict rep = TIMEOUT -> exists k, clk k = true) /\
  (or_verdict rep <> SAT -> or_verified rep = None) /\
  or_message rep = false /\ or_variables rep = nvars p /\
  or_clauses rep = Z.of_nat (length (clauses p)) + or_backtracks rep /\ 0 <= or_backtracks rep <= atoms p.
Proof.
  intros W E. destruct (nc_rep _ _ _ _ _ W E) as (H & M & V & C).
  split; [intro X; rewrite X in H; apply H|]. split; [intro X; rewrite X in H; apply H|].
  split; [intro X; destruct (or_verdict rep); [congruence|apply H|apply H]|]. auto.
Qed.
Lemma nc_ends e clk p : wf p -> (exists K, forall k, (K <= k)%nat -> clk k = true) \/ small p ->
  exists N, forall fuel, (N <= fuel)%nat -> o_solve fuel NonChrono e clk p <> OutOfFuel.
Proof.
  intros W T. destruct (o_solve_nc clk p W) as (_ & G). destruct (G T) as (N & r & NE & H).
  exists N. intros fuel L X. pose proof (solve_ptr fuel NonChrono e clk p) as P. rewrite X in P. simpl in P.
  rewrite (H _ L) in P. auto.
Qed.
Lemma ignored fuel m clk p : wf p ->
  o_solve fuel m PIgnore clk p <> Undef Uninit /\ o_solve fuel m PIgnore clk p <> Undef BadPtr.
Proof.
  intro W. destruct m.
  - destruct (o_solve_chrono clk p W) as (N & rep & E & _).
    assert (X : forall u, o_solve fuel Chrono PIgnore clk p <> Undef u).
    { intros u F. pose proof (o_solve_mono _ _ _ _ _ _ F ltac:(discriminate) (fuel + N)%nat ltac:(lia)) as F'.
      rewrite (E (fuel + N)%nat) in F' by lia. discriminate. }
    auto.
  - destruct (o_solve_nc clk p W) as (G & _). destruct (G fuel) as [G1|G1]; [rewrite G1; split; discriminate|].
    split; intro F; rewrite F in G1; discriminate G1.
Qed.
