(** * The second solver: the theorems in the form of the properties, and the refutations *)

From Verif Require Import Spec Outcome State ModelSearch ModelBuild ModelBit BitSpec BitBuild BitSafe Observe Cases.

Lemma bit_verdict p cf clk r : wf p -> fits64 p -> lone p -> r <= 0 -> blen cf = true ->
  exists N rep s, (forall fuel, (N <= fuel)%nat -> bsolve fuel cf clk r p = Ok (rep, s)) /\
    match br_verdict rep with
    | SAT => map fst (br_model rep) = map Z.of_nat (seq 0 (S (length (doms p)))) /\
        (forall v m, In (v, m) (br_model rep) -> v <> 0 -> exists d, 0 <= d < domsize p v /\ has_value m d) /\
        (forall v m d, In (v, m) (br_model rep) -> has_value m d -> v <> 0 /\ 0 <= d < domsize p v) /\
        (forall a, picks (br_model rep) a -> is_model p a) /\ br_verified rep = Some true
    | UNSAT => ~ satisfiable p
    | TIMEOUT => exists j, clk j = true
    end.
Proof.
  intros W FI LO R LE. destruct (bit_run p W FI cf clk r LE R LO) as (N & rep & s & H & V & _).
  exists N, rep, s. split; auto. destruct (br_verdict rep); auto. destruct V as (V & V').
  split; auto. rewrite V. unfold zrange, nvars.
  replace (Z.to_nat (Z.of_nat (length (doms p)) + 1)) with (S (length (doms p))) by lia.
  apply map_ext. intro. lia.
Qed.

Lemma bit_learned p cf clk r : wf p -> fits64 p -> lone p -> r <= 0 -> blen cf = true ->
  exists N rep s, (forall fuel, (N <= fuel)%nat -> bsolve fuel cf clk r p = Ok (rep, s)) /\
    (forall c, In c (bcl s) -> forall a, is_model p a -> set_clause_holds a c) /\
    br_variables rep = nvars p /\ br_clauses rep = Z.of_nat (length (bcl s)) /\
    br_clauses rep = Z.of_nat (length (clauses p)) + br_backtracks rep /\
    0 <= br_backtracks rep /\ br_restarts rep = 0.
Proof.
  intros W FI LO R LE. destruct (bit_run p W FI cf clk r LE R LO) as (N & rep & s & H & _ & V1 & V2 & V3 & V4 & V5).
  exists N, rep, s. split; auto. split; auto. split; auto. split; [|auto].
  specialize (H N (Nat.le_refl _)). unfold bsolve in H. apply Base.bind_ok in H. destruct H as (s0 & _ & H).
  unfold bsolve_state in H. apply Base.bind_ok in H. destruct H as ((v, s1) & _ & H).
  destruct v; [apply Base.bind_ok in H; destruct H as (b & _ & H)| |]; injection H as <- <-; auto.
Qed.

Definition p_units : problem := mkProblem [3; 2] [[vne 1 1]; [vne 1 2]; [veq 1 0; veq 2 1]].
Lemma bit_units_bad : exists p, wf p /\ fits64 p /\ satisfiable p /\
  forall vs, bsolve 50 (mkBcfg vs true) never 0 p = Undef OobAtom.
Proof.
  exists p_units. split; [apply wf_dec; reflexivity|]. split.
  { intros d Hd. cbn in Hd. intuition lia. }
  split.
  - exists (fun _ => 0). apply model_dec. vm_compute. auto.
  - intros []; vm_compute; auto.
Qed.

Lemma p_sat_fits : fits64 p_sat.
Proof. intros d Hd. cbn in Hd. intuition lia. Qed.
Lemma p_unsat_fits : fits64 p_unsat.
Proof. intros d Hd. cbn in Hd. intuition lia. Qed.
Lemma p_sat_lone : lone p_sat.
Proof. apply loneb_ok. reflexivity. Qed.
Lemma p_sat_satisfiable : satisfiable p_sat.
Proof. exists (fun _ => 0). apply model_dec. vm_compute. auto. Qed.

Lemma bit_restart_bad : exists p, wf p /\ fits64 p /\ lone p /\ satisfiable p /\
  forall vs, bsolve 50 (mkBcfg vs true) never 1 p = Undef OobClause.
Proof.
  exists p_sat. split; [apply p_sat_fine|]. split; [apply p_sat_fits|]. split; [apply p_sat_lone|].
  split; [apply p_sat_satisfiable|]. intros []; vm_compute; auto.
Qed.

Lemma bit_return_bad : exists p, wf p /\ fits64 p /\ lone p /\ satisfiable p /\
  forall vs, bsolve 50 (mkBcfg vs false) never 0 p = Undef NoReturn.
Proof.
  exists p_sat. split; [apply p_sat_fine|]. split; [apply p_sat_fits|]. split; [apply p_sat_lone|].
  split; [apply p_sat_satisfiable|]. intros []; vm_compute; auto.
Qed.

Definition p_wide : problem := mkProblem [65; 2] [[veq 1 0; veq 2 1]].
Lemma bit_domain_bad : exists p, wf p /\ lone p /\ satisfiable p /\
  forall fuel cf clk r, bsolve fuel cf clk r p = Undef BadBit.
Proof.
  exists p_wide. split; [apply wf_dec; reflexivity|]. split; [apply loneb_ok; reflexivity|].
  split; [exists (fun _ => 0); apply model_dec; reflexivity|].
  intros. unfold bsolve. replace (bbuild (items_of p_wide)) with (@Undef bst BadBit) by (vm_compute; auto). auto.
Qed.

Definition p_one : problem := mkProblem [1] [[vne 1 0]].
Lemma bit_one_bad : exists p, fits64 p /\ lone p /\ ~ satisfiable p /\ exists rep s,
  bsolve 50 (mkBcfg false true) never 0 p = Ok (rep, s) /\ br_verdict rep = SAT /\ br_verified rep = Some false.
Proof.
  exists p_one. split; [intros d Hd; cbn in Hd; intuition lia|]. split; [apply loneb_ok; reflexivity|]. split.
  - intros (a & LG & H). specialize (LG 1 ltac:(cbv; intuition congruence)).
    specialize (H [vne 1 0] (or_introl eq_refl)). destruct H as (l & [<-|[]] & H). cbn in LG, H. unfold lit_holds in H. cbn in H. lia.
  - destruct (bsolve 50 (mkBcfg false true) never 0 p_one) as [(rep, s)| |] eqn:E; [|vm_compute in E; discriminate..].
    exists rep, s. split; auto.
    assert (V : match bsolve 50 (mkBcfg false true) never 0 p_one with
      Ok (rep, s) => (br_verdict rep, br_verified rep) | _ => (UNSAT, None) end = (SAT, Some false)) by (vm_compute; auto).
    rewrite E in V. injection V as -> ->. auto.
Qed.
