(** * What follows for the memory of the second solver *)

From Coq Require Import Floats.SpecFloat.
From Verif Require Import Spec Outcome State ModelHeur ModelSearch ModelBuild ModelHeap HeapSpec Base Heap Observe Cases
  ModelBit ModelBitMem BitMemSpec BitHeap BitMemSim BitMemRuns BitSpec BitRuns BitEnds BitClauses.

(** ** The model with lists never accesses a pointer *)

Definition nb {A} (o : outcome A) : Prop := o <> Undef BadPtr.

Lemma nb_bind {A B} (o : outcome A) (f : A -> outcome B) : nb o -> (forall a, nb (f a)) -> nb (bind o f).
Proof. unfold nb. destruct o as [a|u|]; cbn; auto; congruence. Qed.
Lemma nb_foldM {A B} (f : B -> A -> outcome B) : (forall b x, nb (f b x)) -> forall l b, nb (foldM f l b).
Proof. intros H. induction l as [|x l IH]; intro b; cbn [foldM]; [discriminate|]. apply nb_bind; auto. Qed.

Ltac nb1 :=
  match goal with
  | |- forall _, _ => intro
  | |- nb (Ok _) => discriminate
  | |- nb (Undef _) => discriminate
  | |- nb OutOfFuel => discriminate
  | |- nb (bind _ _) => apply nb_bind
  | |- nb (foldM _ _ _) => apply nb_foldM
  | |- nb (let (_, _) := ?x in _) => destruct x
  | |- nb (if ?b then _ else _) => destruct b
  | |- nb (match ?x with _ => _ end) => destruct x
  end.
Create HintDb nbs.
Ltac nbs := repeat first [assumption | solve [auto with nbs nocore] | nb1].

Lemma nb_bvar s v : nb (bvar s v). Proof. unfold bvar. nbs. Qed.
Lemma nb_bget s n : nb (bget s n). Proof. unfold bget. nbs. Qed.
#[local] Hint Resolve nb_bvar nb_bget : nbs.
Lemma nb_bsat s l : nb (bsat s l). Proof. unfold bsat. nbs. Qed.
Lemma nb_rec s v n : nb (badd_record s v n). Proof. unfold badd_record. nbs. Qed.
Lemma nb_bump s l : nb (bump_lit s l). Proof. unfold bump_lit. nbs. Qed.
Lemma nb_node s l : nb (bnode_of s l). Proof. unfold bnode_of. nbs. Qed.
#[local] Hint Resolve nb_bsat nb_rec nb_bump nb_node : nbs.
Lemma nb_read s c l : nb (read_atom s c l). Proof. unfold read_atom, bit_lit. nbs. Qed.
#[local] Hint Resolve nb_read : nbs.
Lemma nb_item s i : nb (badd_item s i).
Proof. destruct i; cbn [badd_item]; [unfold badd_domain; nbs|]. unfold badd_clause. nbs. Qed.
#[local] Hint Resolve nb_item : nbs.
Lemma nb_find s w c : nb (bfind s w c). Proof. induction c; cbn [bfind]; nbs. Qed.
#[local] Hint Resolve nb_find : nbs.
Lemma nb_swap v n s : nb (bswap v n s). Proof. unfold bswap. nbs. Qed.
#[local] Hint Resolve nb_swap : nbs.
Lemma nb_visit v n s : nb (bvisit v n s). Proof. unfold bvisit. nbs. Qed.
#[local] Hint Resolve nb_visit : nbs.
Lemma nb_update v : forall ns s, nb (bupdate v ns s). Proof. induction ns; intro s; cbn [bupdate]; nbs. Qed.
#[local] Hint Resolve nb_update : nbs.
Lemma nb_reduce s l : nb (breduce s l). Proof. unfold breduce. nbs. Qed.
#[local] Hint Resolve nb_reduce : nbs.
Lemma nb_prop : forall f s, nb (bprop f s). Proof. induction f; intro s; cbn [bprop]; nbs. Qed.
Lemma nb_potent s c w : nb (bpotent s c w). Proof. unfold bpotent. nbs. Qed.
Lemma nb_watched s c : nb (bassign_watched s c). Proof. unfold bassign_watched, bwatch_step. nbs. Qed.
Lemma nb_learn c s ls a b : nb (blearn c s ls a b). Proof. unfold blearn. nbs. Qed.
#[local] Hint Resolve nb_prop nb_potent nb_watched nb_learn : nbs.
Lemma nb_analyze c : forall f s ls a b fr, nb (banalyze f c s ls a b fr). Proof. induction f; intros; cbn [banalyze]; nbs. Qed.
#[local] Hint Resolve nb_analyze : nbs.
Lemma nb_conflict f c r rc s : nb (bconflict f c r rc s). Proof. unfold bconflict. nbs. Qed.
Lemma nb_lazy s : forall ns, nb (bchoose_lazy s ns). Proof. induction ns; cbn [bchoose_lazy]; nbs. Qed.
#[local] Hint Resolve nb_conflict nb_lazy : nbs.
Lemma nb_choose c s : nb (bchoose c s). Proof. unfold bchoose, bchoose_vsids, bscore_var, bscore_step. nbs. Qed.
#[local] Hint Resolve nb_choose : nbs.
Lemma nb_iter f c clk r rc s : nb (biter f c clk r rc s). Proof. unfold biter. nbs. Qed.
#[local] Hint Resolve nb_iter : nbs.
Lemma nb_loop c clk r : forall f rc s, nb (bloop f c clk r rc s). Proof. induction f; intros; cbn [bloop]; nbs. Qed.
Lemma nb_vclause s : forall c, nb (bverify_clause s c). Proof. induction c; cbn [bverify_clause]; nbs. Qed.
#[local] Hint Resolve nb_loop nb_vclause : nbs.
Lemma nb_vclauses s : forall c, nb (bverify_clauses s c). Proof. induction c; cbn [bverify_clauses]; nbs. Qed.
#[local] Hint Resolve nb_vclauses : nbs.
Lemma nb_solve f c clk r p : nb (bsolve f c clk r p). Proof. unfold bsolve, bbuild, bsolve_state, bverify. nbs. Qed.

(** ** The theorems *)

Theorem mem_report fuel c clk r p : bsolve fuel c clk r p <> Undef Aliased ->
  (let* q := m_solve fuel c clk r p in Ok (fst q)) = (let* q := bsolve fuel c clk r p in Ok (fst q)).
Proof.
  intros NA. pose proof (solve_sim fuel c clk r p) as S. destruct (bsolve fuel c clk r p) as [(rep & s)|u|]; cbn [sim] in S.
  - destruct S as (y & -> & E & _). cbn [bind fst snd] in *. congruence.
  - destruct u; try congruence; rewrite S; reflexivity.
  - rewrite S. reflexivity.
Qed.

Theorem mem_safe fuel c clk r p : bsolve fuel c clk r p <> Undef Aliased -> m_solve fuel c clk r p <> Undef BadPtr.
Proof.
  intros NA E. pose proof (mem_report fuel c clk r p NA) as H. rewrite E in H. cbn [bind] in H.
  pose proof (nb_solve fuel c clk r p) as N. destruct (bsolve fuel c clk r p) as [q|u|]; cbn [bind] in H; try discriminate. apply N. congruence.
Qed.

Theorem mem_final fuel c clk r p rep s : bsolve fuel c clk r p = Ok (rep, s) ->
  exists x, m_solve fuel c clk r p = Ok (rep, x) /\ in_memory s x (bnv s).
Proof.
  intros E. pose proof (solve_sim fuel c clk r p) as S. rewrite E in S. destruct S as ((rep' & x) & E1 & E2 & H). cbn [fst snd] in *. subst rep'. eauto.
Qed.

(** ** The destructor *)

Lemma delete_all : forall ps ns fuel h prv, (length ps <= fuel)%nat -> NoDup ps -> linked (bmem h) prv ps ns None ->
  exists h', r_delete_all fuel h (first_or ps None) = Ok h' /\ btop h' = btop h /\
    forall p, bmem h' p = if existsb (Nat.eqb p) ps then None else bmem h p.
Proof.
  induction ps as [|p ps IH]; intros ns fuel h prv L ND H; cbn [first_or].
  - destruct fuel; cbn [r_delete_all existsb]; eauto.
  - destruct ns as [|n ns]; [destruct H|]. cbn [linked] in H. destruct H as (E & H). destruct fuel as [|fuel]; [simpl in L; lia|].
    inversion ND as [|? ? N1 N2]; subst. cbn [r_delete_all]. unfold bfree, bload. rewrite E. cbn [bind r_next].
    match goal with |- context [r_delete_all fuel ?X _] => set (h1 := X) end.
    destruct (IH ns fuel h1 (Some p)) as (h' & E1 & E2 & E3); [simpl in L; lia|auto| |].
    { eapply linked_frame; [|exact H]. intros q Hq. cbn [h1 bmem]. apply updn_other. intros ->. auto. }
    exists h'. split; [exact E1|]. split; [exact E2|]. intro q. rewrite E3. cbn [existsb]. unfold h1. cbn [bmem].
    destruct (existsb (Nat.eqb q) ps); [rewrite Bool.orb_true_r; auto|]. rewrite Bool.orb_false_r.
    destruct (Nat.eqb_spec q p) as [->|N]; [apply updn_same|apply updn_other; auto].
Qed.

Theorem mem_destroy h A W v : bstored h A W ->
  exists h', r_destroy h v = Ok h' /\
    (forall p, In p (A v) -> bmem h' p = None) /\ (forall p, ~ In p (A v) -> bmem h' p = bmem h p).
Proof.
  intros S. pose proof S as (S1 & S2 & _). destruct (S1 v) as (T & L). unfold r_destroy. rewrite T.
  destruct (delete_all (A v) (W v) (bbrk h) h None) as (h' & E & _ & H); auto.
  { rewrite <- (seq_length (bbrk h) 0). apply NoDup_incl_length; auto. intros p I. apply in_seq. pose proof (bstored_below h A W v p S I). lia. }
  exists h'. split; auto. split; intros p I; rewrite H.
  - replace (existsb (Nat.eqb p) (A v)) with true; auto. symmetry. apply existsb_exists. exists p. split; auto. apply Nat.eqb_refl.
  - replace (existsb (Nat.eqb p) (A v)) with false; auto. symmetry. apply Bool.not_true_is_false. intro K. apply existsb_exists in K.
    destruct K as (q & K1 & K2). apply Nat.eqb_eq in K2. congruence.
Qed.

(** ** More fuel changes nothing but running out of it *)

Definition up {A} (o o' : outcome A) : Prop := o = OutOfFuel \/ o' = o.
Lemma up_refl {A} (o : outcome A) : up o o. Proof. right. auto. Qed.
Lemma up_bind {A B} (o o' : outcome A) (f f' : A -> outcome B) : up o o' -> (forall a, up (f a) (f' a)) -> up (bind o f) (bind o' f').
Proof. intros [-> | ->] H; [left; reflexivity|]. destruct o as [a|u|]; cbn [bind]; [apply H|right; auto|left; auto]. Qed.
Ltac ups :=
  repeat match goal with
  | |- up ?o ?o => apply up_refl
  | |- forall _, _ => intro
  | |- up OutOfFuel _ => left; reflexivity
  | |- up (bind _ _) (bind _ _) => apply up_bind
  | |- up (if ?b then _ else _) _ => destruct b
  | |- up (match ?x with _ => _ end) _ => destruct x
  | |- _ => solve [auto with nocore]
  end.

Lemma up_prop f : forall f' s, (f <= f')%nat -> up (bprop f s) (bprop f' s).
Proof.
  induction f as [|f IH]; intros f' s L; [left; reflexivity|]. destruct f' as [|f']; [lia|]. assert (L' : (f <= f')%nat) by lia.
  cbn [bprop]. ups.
Qed.
Lemma up_analyze c f : forall f' s ls a b fr, (f <= f')%nat -> up (banalyze f c s ls a b fr) (banalyze f' c s ls a b fr).
Proof.
  induction f as [|f IH]; intros f' s ls a b fr L; [left; reflexivity|]. destruct f' as [|f']; [lia|]. assert (L' : (f <= f')%nat) by lia.
  cbn [banalyze]. ups.
Qed.
Lemma up_conflict f f' c r rc s : (f <= f')%nat -> up (bconflict f c r rc s) (bconflict f' c r rc s).
Proof. intros L. pose proof (fun s ls a b fr => up_analyze c f f' s ls a b fr L) as H. unfold bconflict. ups. Qed.
Lemma up_iter f f' c clk r rc s : (f <= f')%nat -> up (biter f c clk r rc s) (biter f' c clk r rc s).
Proof.
  intros L. pose proof (fun s => up_prop f f' s L) as H1. pose proof (fun r rc s => up_conflict f f' c r rc s L) as H2.
  unfold biter. ups.
Qed.
Lemma up_loop c clk r f : forall f' rc s, (f <= f')%nat -> up (bloop f c clk r rc s) (bloop f' c clk r rc s).
Proof.
  induction f as [|f IH]; intros f' rc s L; [left; reflexivity|]. destruct f' as [|f']; [lia|]. assert (L' : (f <= f')%nat) by lia.
  pose proof (fun rc s => up_iter (S f) (S f') c clk r rc s L) as H. cbn [bloop]. ups.
Qed.
Lemma up_solve f f' c clk r p : (f <= f')%nat -> up (bsolve f c clk r p) (bsolve f' c clk r p).
Proof. intros L. pose proof (fun rc s => up_loop c clk r f f' rc s L) as H. unfold bsolve, bsolve_state. ups. Qed.

(** ** Runs without restarts *)

Lemma not_aliased fuel cf clk r p : wf p -> fits64 p -> r <= 0 -> blen cf = true ->
  bsolve fuel cf clk r p = Undef OobAtom \/ bsolve fuel cf clk r p = OutOfFuel \/ exists q, bsolve fuel cf clk r p = Ok q.
Proof.
  intros W F R B. destruct (bit_outcome p cf clk r W F R B) as (N & H).
  destruct (up_solve fuel (Nat.max N fuel) cf clk r p) as [E|E]; [lia|auto|].
  destruct H as [H|(rep & s & H & _)]; rewrite (H (Nat.max N fuel)) in E by lia; rewrite <- E; eauto.
Qed.

Theorem mem_outcome p cf clk r : wf p -> fits64 p -> r <= 0 -> blen cf = true ->
  (forall fuel u, m_solve fuel cf clk r p = Undef u -> u = OobAtom) /\
  exists N, (forall fuel, (N <= fuel)%nat -> m_solve fuel cf clk r p = Undef OobAtom) \/
    exists rep, (forall fuel, (N <= fuel)%nat -> exists x, m_solve fuel cf clk r p = Ok (rep, x)) /\
      match br_verdict rep with
      | SAT => (forall v, 1 <= v <= nvars p -> exists m d, In (v, m) (br_model rep) /\ has_value m d) /\
          (forall a, picks (br_model rep) a -> is_model p a) /\ br_verified rep = Some true
      | UNSAT => ~ satisfiable p
      | TIMEOUT => exists j, clk j = true
      end.
Proof.
  intros W F R B. split.
  - intros fuel u E. pose proof (solve_sim fuel cf clk r p) as S.
    destruct (not_aliased fuel cf clk r p W F R B) as [H|[H|(q & H)]]; rewrite H in S; cbn [sim] in S.
    + congruence.
    + congruence.
    + destruct S as (y & S & _). congruence.
  - destruct (bit_outcome p cf clk r W F R B) as (N & [H|(rep & s & H & Q)]); exists N.
    + left. intros fuel L. pose proof (solve_sim fuel cf clk r p) as S. rewrite (H fuel L) in S. exact S.
    + right. exists rep. split; auto.
      intros fuel L. destruct (mem_final fuel cf clk r p rep s (H fuel L)) as (x & E & _). eauto.
Qed.

(** Nothing is missing at the end and nothing is there that should not be. *)
Theorem mem_clauses fuel cf clk r p rep x : wf p -> fits64 p -> bsolve fuel cf clk r p <> Undef Aliased ->
  m_solve fuel cf clk r p = Ok (rep, x) ->
  exists A W cs u0 u1 leak, bstored (mh x) A W /\
    objects x cs u0 u1 (map (fun a => (a, o_empty)) leak) /\
    (forall c, In c cs -> forall a, is_model p a -> set_clause_holds a c) /\
    Z.of_nat (length cs) = Z.of_nat (length (clauses p)) + br_backtracks rep /\ Z.of_nat (length leak) = nvars p.
Proof.
  intros W F NA E. pose proof (solve_sim fuel cf clk r p) as S.
  destruct (bsolve fuel cf clk r p) as [(rep' & s)|u|] eqn:EB; cbn [sim] in S.
  - destruct S as (y & S & E1 & M). rewrite E in S. injection S as <-. cbn [fst snd] in *. subst rep'.
    destruct M as ((A & M1) & leak & M2 & M3).
    exists A, (brec s), (bcl s), (bw0 s), (bw1 s), leak.
    destruct (BitClauses.bit_report p fuel cf clk r rep s W F EB) as (Q1 & Q2 & Q3 & _).
    split; auto. split; auto. split; auto.
    unfold bsolve in EB. apply bind_ok in EB. destruct EB as (s0 & _ & EB). apply bind_ok in EB. destruct EB as ((v & s') & _ & EB).
    cbn beta zeta iota in EB.
    assert (X : br_variables rep = bnv s /\ br_clauses rep = Z.of_nat (length (bcl s))).
    { destruct v; [apply bind_ok in EB; destruct EB as (m & _ & EB)| |]; injection EB as <- <-; split; reflexivity. }
    lia.
  - destruct u; try congruence; rewrite E in S; discriminate.
  - congruence.
Qed.

(** With at most one clause about one variable only, the answer comes. *)
Theorem mem_lone p cf clk r : wf p -> fits64 p -> lone p -> r <= 0 -> blen cf = true ->
  (exists N rep, forall fuel, (N <= fuel)%nat -> exists x, m_solve fuel cf clk r p = Ok (rep, x)) /\
  (forall fuel u, m_solve fuel cf clk r p <> Undef u).
Proof.
  intros W F O R B. destruct (bit_verdict p cf clk r W F O R B) as (N & rep & s & H & _).
  assert (H1 : forall fuel, (N <= fuel)%nat -> exists x, m_solve fuel cf clk r p = Ok (rep, x)).
  { intros fuel L. destruct (mem_final fuel cf clk r p rep s (H fuel L)) as (x & E & _). eauto. }
  split; [eauto|]. intros fuel u E. pose proof (solve_sim fuel cf clk r p) as S.
  destruct (up_solve fuel (Nat.max N fuel) cf clk r p) as [E1|E1]; [lia| |].
  - rewrite E1 in S. cbn [sim] in S. congruence.
  - rewrite H in E1 by lia. rewrite <- E1 in S. destruct S as (y & S & _). congruence.
Qed.

(** ** The same clause twice *)

Definition p_twice : problem := mkProblem [2; 2; 2; 2; 2; 2]
  [[veq 1 0; vne 6 0; vne 3 1]; [vne 2 1; vne 4 1; vne 6 1; veq 5 0]; [vne 4 1; vne 1 0; veq 2 0]; [veq 4 1; veq 1 1];
   [vne 1 1; vne 5 1; vne 4 0]; [vne 1 0; vne 2 1; veq 5 1]; [veq 4 0; vne 2 0]; [veq 3 1; veq 4 1; vne 5 0];
   [vne 1 0; vne 6 1]; [vne 4 0; vne 1 0; veq 5 1; veq 3 1]; [veq 3 0; veq 4 1]; [vne 2 1; veq 5 1; veq 4 0]].

Lemma mem_twice : exists p, wf p /\ fits64 p /\ lone p /\ bsolve 300 (mkBcfg false true) never 2 p = Undef Aliased /\
  exists rep x, m_solve 300 (mkBcfg false true) never 2 p = Ok (rep, x) /\ br_verdict rep = SAT /\ br_verified rep = Some true /\
    ~ NoDup (mcl x).
Proof.
  exists p_twice. split; [apply wf_dec; reflexivity|]. split; [intros d Hd; cbn in Hd; intuition lia|].
  split; [apply loneb_ok; reflexivity|]. split; [vm_compute; reflexivity|].
  assert (E : match m_solve 300 (mkBcfg false true) never 2 p_twice with
              | Ok (rep, x) => br_verdict rep = SAT /\ br_verified rep = Some true /\ nth_error (mcl x) 13 = Some 20%nat /\ nth_error (mcl x) 14 = Some 20%nat
              | _ => False end) by (vm_compute; auto).
  destruct (m_solve 300 (mkBcfg false true) never 2 p_twice) as [(rep & x)| |]; try contradiction. destruct E as (E1 & E2 & E3 & E4).
  exists rep, x. split; auto. split; auto. split; auto. intro N. rewrite NoDup_nth_error in N.
  specialize (N 13%nat 14%nat). rewrite E3, E4 in N. assert (L : (13 < length (mcl x))%nat) by (apply nth_error_Some; congruence). specialize (N L eq_refl). lia.
Qed.
