(** * The second solver: its clauses and counters in every run, with or without restarts *)

From Coq Require Import Floats.SpecFloat.
From Verif Require Import Spec Outcome State ModelHeur ModelSearch ModelBuild ModelBit Base BitTrail BitInv
  BitResolve BitLearn BitLoop BitSpec BitBuild BitSafe BitStepSpec BitNode BitScores BitStep BitMany BitEnds.

Section Clauses.
Variable p : problem.
Hypothesis WF : wf p.
Hypothesis FITS : fits64 p.

Definition fine (c : bclause) : Prop := NoDup (map fst c) /\ forall a, is_model p a -> bholds a c.
Definition win (c : bclause) (l : blit) : Prop := fst l = -1 \/ In l c.
Definition sure (s : bst) : Prop := forall n c, nth_error (bcl s) n = Some c ->
  fine c /\ win c (bw0 s n) /\ win c (bw1 s n).

Ltac su := let n := fresh in let c := fresh in let E := fresh in intros n c E; cbn in E |- *; auto.

Lemma record_sure s v n s' : badd_record s v n = Ok s' -> sure s -> sure s'.
Proof. unfold badd_record. intros H K. apply bind_ok in H. destruct H as (u & _ & H). injection H as <-. su. Qed.

Lemma bumps_sure ls s s' : foldM bump_lit ls s = Ok s' -> sure s -> sure s'.
Proof.
  intros H K. apply (foldM_inv_ok bump_lit sure ls s); auto.
  intros l b1 b2 _ H1 H2. unfold bump_lit in H2. apply bind_ok in H2. destruct H2 as (u & _ & H2).
  destruct (max_domain <? bdom b1 (fst l)); [discriminate|]. injection H2 as <-. su.
Qed.

Lemma flip_sure n s : sure s -> sure (bflip n s).
Proof.
  intros K m c E. destruct (K m c E) as (H1 & H2 & H3). split; auto. cbn. unfold updn.
  destruct (Nat.eqb_spec m n) as [->|]; auto.
Qed.

Lemma find_in s w c : forall l, bfind s w c = Ok (Some l) -> In l c.
Proof.
  induction c as [|x c IH]; intros l H; [discriminate|]. cbn [bfind] in H. apply bind_ok in H. destruct H as (y & _ & H).
  destruct y; try (right; apply IH; exact H);
    (destruct (fst x =? fst w); [right; apply IH; exact H|injection H as ->; left; auto]).
Qed.

Lemma get_nth s n c : bget s n = Ok c -> nth_error (bcl s) n = Some c.
Proof. unfold bget. destruct (nth_error (bcl s) n); [|discriminate]. intro H. congruence. Qed.

Lemma swap_sure v n s s' : bswap v n s = Ok s' -> sure s -> sure s'.
Proof.
  unfold bswap. intros H K. apply bind_ok in H. destruct H as (c & Ec & H). apply bind_ok in H. destruct H as (x & _ & H).
  destruct x; try (injection H as <-; su).
  apply bind_ok in H. destruct H as (o & Eo & H). destruct o as [l|]; [|injection H as <-; su].
  destruct (fst (bw0 s n) =? v); [|discriminate]. apply bind_ok in H. destruct H as (s1 & E & H). injection H as <-.
  pose proof (record_same _ _ _ _ E) as (_ & EC & _). cbn in EC.
  apply record_sure in E; [|su]. apply find_in in Eo. apply get_nth in Ec.
  intros m d Em. cbn in Em |- *. destruct (E m d Em) as (H1 & H2 & H3). split; auto. split; auto. unfold updn.
  destruct (Nat.eqb_spec m n) as [->|]; auto. right. congruence.
Qed.

Lemma visit_sure v n s s' : bvisit v n s = Ok s' -> sure s -> sure s'.
Proof.
  unfold bvisit. intros H K. apply bind_ok in H. destruct H as (c & _ & H). apply bind_ok in H. destruct H as (x & _ & H).
  destruct x; try (injection H as <-; exact K);
    (apply bind_ok in H; destruct H as (y & _ & H); destruct y; try (injection H as <-; apply flip_sure; exact K);
     (cbv zeta in H; apply bind_ok in H; destruct H as (z & _ & H);
      assert (S1 : sure (if fst (bw1 s n) =? v then bflip n s else s)) by (destruct (_ =? _); auto using flip_sure);
      destruct z; first [injection H as <-; exact S1|apply swap_sure in H; [exact H|exact S1]])).
Qed.

Lemma update_sure v ns : forall s s', bupdate v ns s = Ok s' -> sure s -> sure s'.
Proof.
  induction ns as [|n ns IH]; intros s s' H K; cbn [bupdate] in H; [injection H as <-; auto|].
  destruct (bconf s); [injection H as <-; auto|]. apply bind_ok in H. destruct H as (s1 & E & H).
  apply visit_sure in E; auto. apply IH in H; auto.
Qed.

Lemma reduce_sure s l s' : breduce s l = Ok s' -> sure s -> sure s'.
Proof.
  unfold breduce. intros H K. apply bind_ok in H. destruct H as (u & _ & H).
  destruct (Z.ldiff (bcur s (fst l)) (snd l) =? 0); [injection H as <-; auto|].
  apply update_sure in H; auto.
Qed.

Lemma prop_sure fuel : forall s s', bprop fuel s = Ok s' -> sure s -> sure s'.
Proof.
  induction fuel as [|f IH]; intros s s' H K; [discriminate|]. cbn [bprop] in H.
  destruct (bconf s). { injection H as <-. su. }
  destruct (bulist s) as [|n rest]; [injection H as <-; auto|].
  apply bind_ok in H. destruct H as (c & _ & H). apply bind_ok in H. destruct H as (x & _ & H).
  set (s1 := set_bulist (set_buc s (Some n)) rest) in *.
  assert (K1 : sure s1) by su.
  assert (RED : forall l, (let* s := breduce s1 l in bprop f (set_bunits s (bunits s + 1))) = Ok s' -> sure s').
  { intros l E. apply bind_ok in E. destruct E as (s2 & E & E'). apply reduce_sure in E; auto.
    apply IH in E'; auto. }
  destruct x; eauto; (destruct (Nat.ltb 1 (length c)); [|eauto];
    apply bind_ok in H; destruct H as (y & _ & H); destruct y; eauto).
Qed.

Lemma choose_sure cf s s' l : bchoose cf s = Ok (s', l) -> sure s -> sure s'.
Proof.
  unfold bchoose, bchoose_vsids. intros H K. destruct (bvsids cf); apply bind_ok in H; destruct H as (x & _ & H);
    injection H as <- _; su.
Qed.

Lemma undo_sure s : sure s -> sure (bundo s).
Proof.
  unfold bundo. generalize (zrange 1 (bnv s)) as vs. intros vs. revert s. induction vs as [|v vs IH]; intros s K; [auto|].
  cbn [fold_left]. apply IH. unfold bundo_var.
  destruct (bpop (blevel s) (bnodes s v) (bcur s v) (baix s)) as ((ns & cur) & aix). su.
Qed.

(** ** Learning *)

Lemma learn_sure cf s q a b s' : blearn cf s q a b = Ok s' -> sure s -> fine q -> win q a -> win q b ->
  sure s' /\ length (bcl s') = S (length (bcl s)).
Proof.
  unfold blearn. cbv zeta. intros H K FQ WA WB. apply bind_ok in H. destruct H as (s1 & E1 & H).
  apply bind_ok in H. destruct H as (s2 & E2 & H). apply bind_ok in H. destruct H as (s3 & E3 & H).
  destruct (blen cf); [|discriminate]. injection H as <-.
  set (s0 := set_bw1 _ _) in E1.
  assert (K0 : sure s0).
  { intros n c E. cbn in E |- *. unfold updn. destruct (Nat.eqb_spec n (length (bcl s))) as [->|N].
    - rewrite nth_error_app2, Nat.sub_diag in E by lia. injection E as <-. auto.
    - rewrite nth_error_app1 in E; auto.
      assert (n < length (bcl s ++ [q]))%nat by (apply nth_error_Some; congruence). rewrite app_length in *. cbn in *. lia. }
  assert (L0 : length (bcl s0) = S (length (bcl s))) by (cbn; rewrite app_length; cbn; lia).
  pose proof (record_same _ _ _ _ E1) as (_ & C1 & _). apply record_sure in E1; auto.
  assert (S2 : bcl s2 = bcl s1 /\ sure s2).
  { destruct (Nat.ltb 1 (length q)); [|injection E2 as <-; auto].
    pose proof (record_same _ _ _ _ E2) as (_ & C2 & _). apply record_sure in E2; auto. }
  destruct S2 as (C2 & K2). assert (S3 : same s2 s3) by (apply (BitSafe.bumps_same (fun x => x) 0 q); auto). destruct S3 as (_ & C3 & _). apply bumps_sure in E3; auto.
  split; [su|]. cbn. congruence.
Qed.

Lemma watched_win s q w : bassign_watched s q = Ok w -> win q (fst w) /\ win q (snd w).
Proof.
  unfold bassign_watched. intro H. apply bind_ok in H. destruct H as (z & E & H). injection H as <-. cbn [fst snd].
  apply (foldM_inv_ok (bwatch_step s) (fun z => win q (fst (fst z)) /\ win q (fst (snd z))) q ((bnolit, -1), (bnolit, -1))); auto.
  - cbn. unfold win. auto.
  - intros l (b1, b2) z2 Hl (H1 & H2) E2. unfold bwatch_step in E2. apply bind_ok in E2. destruct E2 as (x & _ & E2).
    cbn [fst snd] in *. destruct (snd b1 <? nidx x); [injection E2 as <-; cbn; unfold win; auto|].
    destruct (snd b2 <? nidx x); injection E2 as <-; cbn; unfold win; auto.
Qed.

Lemma analyze_sure fuel cf : forall s q a b fresh s' r, banalyze fuel cf s q a b fresh = Ok (s', r) -> sure s ->
  fine q -> win q a -> win q b -> sure s' /\ length (bcl s') = S (length (bcl s)).
Proof.
  induction fuel as [|f IH]; intros s q a b fresh s' r H K FQ WA WB; [discriminate|]. cbn [banalyze] in H.
  apply bind_ok in H. destruct H as (x & _ & H). destruct x.
  - destruct fresh; [|discriminate]. apply bind_ok in H. destruct H as (s1 & E & H). injection H as <- <-.
    eapply learn_sure; eauto.
  - apply bind_ok in H. destruct H as (x & Ex & H). destruct (nreason x) as [n|]; [|discriminate].
    apply bind_ok in H. destruct H as (c & Ec & H). apply bind_ok in H. destruct H as (w & Ew & H).
    apply get_nth in Ec. destruct (K n c Ec) as (FC & _). apply watched_win in Ew. destruct Ew as (W1 & W2).
    eapply IH; eauto. split; [apply resolve_nodup|]. intros d Hd. destruct WA as [WA|WA].
    + unfold bnode_of, bvar in Ex. rewrite WA in Ex. cbn in Ex. discriminate.
    + apply resolve_holds; auto; [apply FQ|apply FQ; auto|apply FC; auto].
Qed.

(** ** One iteration *)

Definition restarts_at (r b : Z) : Z := if 0 <? r then b / r else 0.
Definition next_at (r b : Z) : Z := if 0 <? r then r * (b / r + 1) else r.

Definition counted (r rc : Z) (s : bst) : Prop :=
  sure s /\ Z.of_nat (length (bcl s)) = Z.of_nat (length (clauses p)) + bback s /\ 0 <= bback s /\
  brest s = restarts_at r (bback s) /\ rc = next_at r (bback s).

Lemma next_restart r b : 0 <= b ->
  if b + 1 =? next_at r b then restarts_at r (b + 1) = restarts_at r b + 1 /\ next_at r (b + 1) = b + 1 + r
  else restarts_at r (b + 1) = restarts_at r b /\ next_at r (b + 1) = next_at r b.
Proof.
  intro B. unfold next_at, restarts_at. destruct (Z.ltb_spec 0 r) as [R|R].
  - pose proof (Z.div_mod b r ltac:(lia)) as E. pose proof (Z.mod_pos_bound b r R) as M.
    destruct (Z.eqb_spec (b + 1) (r * (b / r + 1))) as [Q|Q].
    + assert (G : (b + 1) / r = b / r + 1) by (rewrite Q; rewrite Z.mul_comm; apply Z.div_mul; lia).
      rewrite G. split; [auto|]. rewrite Q. ring.
    + assert (G : (b + 1) / r = b / r).
      { symmetry. apply (Z.div_unique _ _ _ (b mod r + 1)); [left|]; nia. }
      rewrite G. auto.
  - destruct (Z.eqb_spec (b + 1) r); [lia|auto].
Qed.

Lemma conflict_counted fuel cf r rc s s' rc' : bconflict fuel cf r rc s = Ok (s', rc') -> counted r rc s -> counted r rc' s'.
Proof.
  unfold bconflict. intros H (K & L & B & R & RC). apply bind_ok in H. destruct H as (ls & E0 & H).
  apply bind_ok in H. destruct H as ((s1, (q, b)) & E & H). pose proof (analyze_eqc _ _ _ _ _ _ _ _ _ E) as (B1 & R1).
  apply get_nth in E0. destruct (K _ _ E0) as (F0 & W0 & W1).
  apply analyze_sure in E; auto. destruct E as (K1 & L1).
  apply bind_ok in H. destruct H as (lev & _ & H).
  set (s2 := set_bconf (set_bback (set_blevel s1 lev) (bback (set_blevel s1 lev) + 1)) false) in *.
  assert (K2 : sure s2) by su. apply undo_sure in K2.
  pose proof (undo_eqc s2) as (B3 & R3). pose proof (undo_samev s2) as (_ & C3 & _).
  assert (X : length (bcl (bundo s2)) = S (length (bcl s)) /\ bback (bundo s2) = bback s + 1 /\ brest (bundo s2) = brest s).
  { rewrite B3, R3, C3. cbn. split; [auto|]. split; lia. }
  destruct X as (X1 & X2 & X3). assert (X4 : bback s2 = bback s + 1) by (cbn; lia).
  pose proof (next_restart r (bback s) B) as N. rewrite <- RC in N. rewrite X4 in H.
  destruct (bback s + 1 =? rc).
  - injection H as <- <-. unfold counted. cbn [set_blevel set_bulist set_brest bcl bback brest]. rewrite X1, X2, X3.
    split; [exact K2|]. split; [lia|]. split; [lia|]. split; lia.
  - injection H as <- <-. unfold counted. cbn [set_blevel set_bulist set_brest bcl bback brest]. rewrite X1, X2, X3.
    split; [exact K2|]. split; [lia|]. split; [lia|]. split; lia.
Qed.

Lemma counted_same r rc s s' : counted r rc s -> sure s' -> bcl s' = bcl s -> eqc s s' -> counted r rc s'.
Proof. intros (K & L & B & R & RC) K' E (E1 & E2). unfold counted. rewrite E, E1, E2. auto. Qed.

Lemma iter_counted fuel cf clk r rc s q : biter fuel cf clk r rc s = Ok q -> counted r rc s ->
  match q with inl (_, s') => exists rc', counted r rc' s' | inr (rc', s') => counted r rc' s' end.
Proof.
  unfold biter. intros H K. set (s0 := set_btick s (S (btick s))) in *.
  assert (K0 : counted r rc s0) by exact K.
  destruct (clk (btick s)); [injection H as <-; eauto|].
  destruct (bconf s0 && (blevel s0 =? 0)); [injection H as <-; eauto|].
  apply bind_ok in H. destruct H as ((s1, rc1) & E1 & H).
  assert (K1 : counted r rc1 s1).
  { destruct (bconf s0); [apply conflict_counted in E1; auto|]. injection E1 as <- <-. auto. }
  apply bind_ok in H. destruct H as (s2 & E2 & H).
  assert (K2 : counted r rc1 s2).
  { destruct (bulist s1); [injection E2 as <-; auto|]. pose proof (prop_samev _ _ _ E2) as (_ & C2 & _).
    pose proof (prop_eqc _ _ _ E2) as Q2. apply prop_sure in E2; [|apply K1]. eapply counted_same; eauto. }
  destruct (bconf s2); [injection H as <-; auto|].
  apply bind_ok in H. destruct H as ((s3, l) & E3 & H).
  assert (K3 : counted r rc1 s3).
  { pose proof (choose_samev _ _ _ _ E3) as (_ & C3 & _). pose proof (choose_eqc _ _ _ _ E3) as Q3.
    apply choose_sure in E3; [|apply K2]. eapply counted_same; eauto. }
  destruct (fst l =? -1); [injection H as <-; eauto|].
  apply bind_ok in H. destruct H as (s4 & E4 & H). injection H as <-.
  pose proof (reduce_samev _ _ _ E4) as (_ & C4 & _). pose proof (reduce_eqc _ _ _ E4) as Q4.
  apply reduce_sure in E4; [|apply K3]. apply (counted_same r rc1 s3); auto.
Qed.

(** ** The whole run *)

Lemma start_counted r s : bbuild (items_of p) = Ok s -> counted r r s.
Proof.
  intro E. destruct (build_ok p WF FITS) as (s1 & E1 & HB & EC). assert (s1 = s) by congruence. subst s1.
  pose proof (bu_base p s HB) as BB. unfold counted. split; [|split; [|split]].
  - intros n c En. destruct (b_cls _ _ _ _ _ _ BB n c En) as (_ & N & _ & H). split; [split; auto|].
    split; [right; apply (b_watch _ _ _ _ _ _ BB n c En)|].
    destruct (Nat.eq_dec (length c) 1) as [L|L]; [|right; apply (b_watch _ _ _ _ _ _ BB n c En); auto].
    left. apply (build_w1 _ s E n c En L).
  - rewrite EC, map_length, (bu_back p s HB). lia.
  - rewrite (bu_back p s HB). lia.
  - rewrite (bu_rest p s HB), (bu_back p s HB). unfold restarts_at, next_at.
    destruct (Z.ltb_spec 0 r); [|auto]. rewrite Z.div_0_l by lia. lia.
Qed.

Lemma reached_counted cf clk r rc s : bit_reached cf clk r p rc s -> counted r rc s.
Proof.
  induction 1 as [s E|fuel rc s rc' s' _ IH E]; [apply start_counted; auto|].
  apply iter_counted in E; auto.
Qed.

Lemma loop_counted fuel cf clk r : forall rc s v s', bloop fuel cf clk r rc s = Ok (v, s') -> counted r rc s ->
  (exists rc', counted r rc' s') /\ (v = TIMEOUT -> exists j, clk j = true).
Proof.
  induction fuel as [|f IH]; intros rc s v s' H K; [discriminate|]. cbn [bloop] in H.
  apply bind_ok in H. destruct H as (q & E & H). pose proof (iter_counted _ _ _ _ _ _ _ E K) as K1.
  destruct q as [(v1, s1)|(rc1, s1)]; [|eauto]. injection H as <- <-. split; [auto|]. intros ->.
  unfold biter in E. destruct (clk (btick s)) eqn:C; [eauto|]. exfalso.
  destruct (_ && _) in E; [discriminate|]. apply bind_ok in E. destruct E as ((s2, rc2) & _ & E).
  apply bind_ok in E. destruct E as (s3 & _ & E). destruct (bconf s3); [discriminate|].
  apply bind_ok in E. destruct E as ((s4, l) & _ & E). destruct (fst l =? -1); [discriminate|].
  apply bind_ok in E. destruct E as (s5 & _ & E). discriminate.
Qed.
End Clauses.

Theorem bit_clauses p cf clk r rc s : wf p -> fits64 p -> bit_reached cf clk r p rc s ->
  (forall c, In c (bcl s) -> forall a, is_model p a -> set_clause_holds a c) /\
  Z.of_nat (length (bcl s)) = Z.of_nat (length (clauses p)) + bback s /\ 0 <= bback s /\
  brest s = (if 0 <? r then bback s / r else 0).
Proof.
  intros W FI H. apply (reached_counted p W FI) in H. destruct H as (K & L & B & R & _).
  split; [|auto]. intros c Hc a Ha. apply In_nth_error in Hc. destruct Hc as (n & Hc). destruct (K n c Hc) as ((_ & F) & _).
  destruct (F a Ha) as (l & Hl & Hi). exists (fst l), (snd l). destruct l; auto.
Qed.

Theorem bit_report p fuel cf clk r rep s : wf p -> fits64 p -> bsolve fuel cf clk r p = Ok (rep, s) ->
  (forall c, In c (bcl s) -> forall a, is_model p a -> set_clause_holds a c) /\
  br_variables rep = nvars p /\ br_clauses rep = Z.of_nat (length (clauses p)) + br_backtracks rep /\ 0 <= br_backtracks rep /\
  br_restarts rep = (if 0 <? r then br_backtracks rep / r else 0) /\
  (br_verdict rep = TIMEOUT -> exists j, clk j = true).
Proof.
  intros W FI H. unfold bsolve in H. apply bind_ok in H. destruct H as (s0 & E0 & H).
  unfold bsolve_state in H. apply bind_ok in H. destruct H as ((v, s1) & E1 & H).
  pose proof (loop_counted p _ _ _ _ _ _ _ _ E1 (start_counted p W FI r s0 E0)) as ((rc & K & L & B & R & _) & T).
  assert (NV : bnv s1 = nvars p).
  { destruct (build_ok p W FI) as (s2 & E2 & HB & _). assert (s2 = s0) by congruence. subst s2.
    assert (KK : kept (bcl s0) (bcur s0) (nvars p) s0).
    { destruct (bu_base p s0 HB). constructor; auto.
      - exists []. rewrite app_nil_r. auto.
      - intros u x i Hx. rewrite b_nodes in Hx. destruct Hx. }
    pose proof (loop_kept _ _ _ _ _ _ _ _ _ _ _ E1 KK) as KK1. apply KK1. }
  assert (G : bcl s = bcl s1 /\ br_verdict rep = v /\ br_variables rep = bnv s1 /\ br_clauses rep = Z.of_nat (length (bcl s1)) /\
    br_backtracks rep = bback s1 /\ br_restarts rep = brest s1).
  { destruct v; [apply bind_ok in H; destruct H as (b & _ & H)| |]; injection H as <- <-; cbn; auto 8. }
  destruct G as (G0 & -> & -> & -> & -> & ->). rewrite G0. split; [|auto 8].
  intros c Hc a Ha. apply In_nth_error in Hc. destruct Hc as (n & Hc). destruct (K n c Hc) as ((_ & F) & _).
  destruct (F a Ha) as (l & Hl & Hi). exists (fst l), (snd l). destruct l; auto.
Qed.
