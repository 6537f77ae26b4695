(** * The second solver: the time checks of a run *)

From Coq Require Import Floats.SpecFloat.
From Verif Require Import Spec Outcome State ModelHeur ModelSearch ModelBuild ModelBit Base BitEnds.

(** ** What does not change the clock and the counter of decisions *)

Definition eqt (s s' : bst) : Prop := bdec s' = bdec s /\ btick s' = btick s.
Ltac et := unfold eqt; cbn; auto.

Lemma eqt_trans s1 s2 s3 : eqt s1 s2 -> eqt s2 s3 -> eqt s1 s3.
Proof. unfold eqt. intuition congruence. Qed.

Lemma record_eqt s v n s' : badd_record s v n = Ok s' -> eqt s s'.
Proof. unfold badd_record. intro H. apply bind_ok in H. destruct H as (u & _ & H). injection H as <-. et. Qed.

Lemma bumps_eqt ls s s' : foldM bump_lit ls s = Ok s' -> eqt s s'.
Proof.
  intro H. apply (foldM_inv_ok bump_lit (eqt s) ls s); auto; [et|].
  intros l b1 b2 _ H1 H2. apply (eqt_trans _ b1); auto. unfold bump_lit in H2. apply bind_ok in H2. destruct H2 as (u & _ & H2).
  destruct (max_domain <? bdom b1 (fst l)); [discriminate|]. injection H2 as <-. et.
Qed.

Lemma swap_eqt v n s s' : bswap v n s = Ok s' -> eqt s s'.
Proof.
  unfold bswap. intro H. apply bind_ok in H. destruct H as (c & _ & H). apply bind_ok in H. destruct H as (x & _ & H).
  destruct x; try (injection H as <-; et).
  apply bind_ok in H. destruct H as (o & _ & H). destruct o as [l|]; [|injection H as <-; et].
  destruct (fst (bw0 s n) =? v); [|discriminate]. apply bind_ok in H. destruct H as (s1 & E & H). injection H as <-.
  apply record_eqt in E. exact E.
Qed.

Lemma visit_eqt v n s s' : bvisit v n s = Ok s' -> eqt s s'.
Proof.
  unfold bvisit. intro H. apply bind_ok in H. destruct H as (c & _ & H). apply bind_ok in H. destruct H as (x & _ & H).
  destruct x; try (injection H as <-; et);
    (apply bind_ok in H; destruct H as (y & _ & H); destruct y; try (injection H as <-; et);
     (cbv zeta in H; apply bind_ok in H; destruct H as (z & _ & H);
      assert (S1 : eqt s (if fst (bw1 s n) =? v then bflip n s else s)) by (destruct (_ =? _); et);
      destruct z; first [injection H as <-; exact S1|apply swap_eqt in H; eapply eqt_trans; [exact S1|exact H]])).
Qed.

Lemma update_eqt v ns : forall s s', bupdate v ns s = Ok s' -> eqt s s'.
Proof.
  induction ns as [|n ns IH]; intros s s' H; cbn [bupdate] in H; [injection H as <-; et|].
  destruct (bconf s); [injection H as <-; et|]. apply bind_ok in H. destruct H as (s1 & E & H).
  apply visit_eqt in E. apply IH in H. eapply eqt_trans; eauto.
Qed.

Lemma reduce_eqt s l s' : breduce s l = Ok s' -> eqt s s'.
Proof.
  unfold breduce. intros H. apply bind_ok in H. destruct H as (u & _ & H).
  destruct (Z.ldiff (bcur s (fst l)) (snd l) =? 0); [injection H as <-; et|].
  apply update_eqt in H. exact H.
Qed.

Lemma prop_eqt fuel : forall s s', bprop fuel s = Ok s' -> eqt s s'.
Proof.
  induction fuel as [|f IH]; intros s s' H; [discriminate|]. cbn [bprop] in H.
  destruct (bconf s). { injection H as <-. et. }
  destruct (bulist s) as [|n rest]; [injection H as <-; et|].
  apply bind_ok in H. destruct H as (c & _ & H). apply bind_ok in H. destruct H as (x & _ & H).
  set (s1 := set_bulist (set_buc s (Some n)) rest) in *.
  assert (K1 : forall s', eqt s1 s' -> eqt s s') by (intros; auto).
  assert (RED : forall l, (let* s := breduce s1 l in bprop f (set_bunits s (bunits s + 1))) = Ok s' -> eqt s s').
  { intros l E. apply bind_ok in E. destruct E as (s2 & E & E'). apply reduce_eqt in E.
    apply IH in E'. apply K1. eapply eqt_trans; [exact E|exact E']. }
  destruct x; eauto; (destruct (Nat.ltb 1 (length c)); [|eauto];
    apply bind_ok in H; destruct H as (y & _ & H); destruct y; eauto).
Qed.

Lemma learn_eqt cf s q a b s' : blearn cf s q a b = Ok s' -> eqt s s'.
Proof.
  unfold blearn. cbv zeta. intros H. apply bind_ok in H. destruct H as (s1 & E1 & H).
  apply bind_ok in H. destruct H as (s2 & E2 & H). apply bind_ok in H. destruct H as (s3 & E3 & H).
  destruct (blen cf); [|discriminate]. injection H as <-.
  apply record_eqt in E1. apply bumps_eqt in E3.
  assert (S2 : eqt s1 s2).
  { destruct (Nat.ltb 1 (length q)); [apply record_eqt in E2; auto|]. injection E2 as <-. et. }
  exact (eqt_trans _ _ _ (eqt_trans _ _ _ E1 S2) E3).
Qed.

Lemma analyze_eqt fuel cf : forall s q a b fresh s' r, banalyze fuel cf s q a b fresh = Ok (s', r) -> eqt s s'.
Proof.
  induction fuel as [|f IH]; intros s q a b fresh s' r H; [discriminate|]. cbn [banalyze] in H.
  apply bind_ok in H. destruct H as (p & _ & H). destruct p.
  - destruct fresh; [|discriminate]. apply bind_ok in H. destruct H as (s1 & E & H). injection H as <- <-.
    eapply learn_eqt; eauto.
  - apply bind_ok in H. destruct H as (x & _ & H). destruct (nreason x) as [n|]; [|discriminate].
    apply bind_ok in H. destruct H as (c & _ & H). apply bind_ok in H. destruct H as (w & _ & H). eapply IH; eauto.
Qed.

Lemma undo_eqt s : eqt s (bundo s).
Proof.
  unfold bundo. generalize (zrange 1 (bnv s)) as vs. intros vs. revert s. induction vs as [|v vs IH]; intros s; [et|].
  cbn [fold_left]. eapply eqt_trans; [|apply IH]. unfold bundo_var.
  destruct (bpop (blevel s) (bnodes s v) (bcur s v) (baix s)) as ((ns & cur) & aix). et.
Qed.

Lemma choose_eqt cf s s' l : bchoose cf s = Ok (s', l) -> eqt s s'.
Proof.
  unfold bchoose, bchoose_vsids. intro H. destruct (bvsids cf); apply bind_ok in H; destruct H as (x & _ & H);
    injection H as <- _; et.
Qed.

(** ** Iterations *)

Lemma conflict_tick fuel cf r rc s s' rc' : bconflict fuel cf r rc s = Ok (s', rc') ->
  bdec s' = bdec s /\ btick s' = btick s /\ bback s' = bback s + 1 /\ bconf s' = false.
Proof.
  unfold bconflict. intros H. apply bind_ok in H. destruct H as (ls & E & H). clear E.
  apply bind_ok in H. destruct H as ((s1, (q, b)) & E & H). pose proof (analyze_eqc _ _ _ _ _ _ _ _ _ E) as (E3 & _).
  apply analyze_eqt in E. destruct E as (E1 & E2).
  apply bind_ok in H. destruct H as (lev & E & H). clear E. cbv zeta in *.
  set (s2 := set_bconf (set_bback (set_blevel s1 lev) (bback (set_blevel s1 lev) + 1)) false) in *.
  assert (D2 : bdec s2 = bdec s) by (cbn; lia). assert (T2 : btick s2 = btick s) by (cbn; lia).
  assert (B2 : bback s2 = bback s + 1) by (cbn; lia).
  destruct (undo_eqt s2) as (U1 & U2). destruct (undo_eqc s2) as (U3 & _).
  assert (U4 : bconf (bundo s2) = false).
  { unfold bundo. generalize (zrange 1 (bnv s2)) as vs. assert (C : bconf s2 = false) by reflexivity. revert C. generalize s2 as x. clear.
    intros x C vs. revert x C. induction vs as [|v vs IH]; intros x C; [exact C|]. cbn [fold_left]. apply IH. unfold bundo_var.
    destruct (bpop (blevel x) (bnodes x v) (bcur x v) (baix x)) as ((ns & cur) & aix). exact C. }
  clearbody s2. destruct (bback s2 =? rc); injection H as <- <-; cbn; repeat split; try congruence; lia.
Qed.

(** The number of checks, decisions and conflicts so far. *)
Definition paced (s : bst) : Prop :=
  bdec s <= Z.of_nat (btick s) <= bdec s + bback s + if bconf s then 1 else 0.

Lemma iter_tick fuel cf clk r rc s q : biter fuel cf clk r rc s = Ok q ->
  match q with
  | inl (v, s') => btick s' = S (btick s) /\ (v = TIMEOUT <-> clk (btick s) = true) /\ bdec s' = bdec s /\
      (paced s -> Z.of_nat (btick s) <= bdec s' + bback s' + 1)
  | inr (_, s') => btick s' = S (btick s) /\ clk (btick s) = false /\ (paced s -> paced s')
  end.
Proof.
  unfold biter. intros H. set (s0 := set_btick s (S (btick s))) in *.
  assert (T0 : btick s0 = S (btick s)) by reflexivity. assert (D0 : bdec s0 = bdec s) by reflexivity.
  assert (B0 : bback s0 = bback s) by reflexivity. assert (C0 : bconf s0 = bconf s) by reflexivity. clearbody s0.
  destruct (clk (btick s)) eqn:CK.
  { injection H as <-. split; [auto|]. split; [tauto|]. split; [auto|]. unfold paced. rewrite D0, B0. destruct (bconf s); lia. }
  destruct (bconf s0 && (blevel s0 =? 0)).
  { injection H as <-. split; [auto|]. split; [split; discriminate|]. split; [auto|]. unfold paced. rewrite D0, B0. destruct (bconf s); lia. }
  apply bind_ok in H. destruct H as ((s1, rc1) & E1 & H).
  assert (K1 : bdec s1 = bdec s /\ btick s1 = S (btick s) /\ bback s1 = bback s + (if bconf s then 1 else 0)).
  { rewrite C0 in E1. destruct (bconf s).
    - apply conflict_tick in E1. destruct E1 as (-> & -> & -> & _). rewrite D0, B0. auto.
    - injection E1 as <- <-. rewrite D0, B0. split; [auto|]. split; [auto|lia]. }
  apply bind_ok in H. destruct H as (s2 & E2 & H).
  assert (K2 : bdec s2 = bdec s /\ btick s2 = S (btick s) /\ bback s2 = bback s + (if bconf s then 1 else 0)).
  { destruct (bulist s1); [injection E2 as <-; auto|]. pose proof (prop_eqc _ _ _ E2) as (Q1 & _). apply prop_eqt in E2. destruct E2 as (Q2 & Q3).
    rewrite Q1, Q2, Q3. auto. }
  clear K1. destruct K2 as (D2 & T2 & B2).
  destruct (bconf s2) eqn:C2.
  { injection H as <-. split; [auto|]. split; [auto|]. unfold paced. rewrite C2, D2, T2, B2. destruct (bconf s); lia. }
  apply bind_ok in H. destruct H as ((s3, l) & E3 & H). pose proof (choose_eqc _ _ _ _ E3) as (Q1 & _).
  pose proof (choose_eqt _ _ _ _ E3) as (Q2 & Q3).
  destruct (fst l =? -1).
  { injection H as <-. split; [congruence|]. split; [split; discriminate|]. split; [congruence|]. unfold paced. rewrite Q2, Q1, D2, B2. destruct (bconf s); lia. }
  apply bind_ok in H. destruct H as (s4 & E4 & H). injection H as <-.
  pose proof (reduce_eqc _ _ _ E4) as (R1 & _). apply reduce_eqt in E4. destruct E4 as (R2 & R3). cbn in R1, R2, R3.
  split; [congruence|]. split; [auto|]. unfold paced. rewrite R1, R2, R3, Q1, Q2, Q3, D2, T2, B2. destruct (bconf s), (bconf s4); lia.
Qed.

Lemma loop_tick cf clk r fuel : forall rc s v s', bloop fuel cf clk r rc s = Ok (v, s') -> paced s ->
  exists k, (btick s <= k)%nat /\ (forall j, (btick s <= j < k)%nat -> clk j = false) /\ (v = TIMEOUT <-> clk k = true) /\
    bdec s' <= Z.of_nat k <= bdec s' + bback s' + 1.
Proof.
  induction fuel as [|f IH]; intros rc s v s' H P; [discriminate|]. cbn [bloop] in H.
  apply bind_ok in H. destruct H as (q & E & H). apply iter_tick in E. destruct q as [(v1, s1)|(rc1, s1)].
  - injection H as <- <-. destruct E as (E1 & E2 & E3 & E4). exists (btick s). split; [lia|]. split; [lia|]. split; [auto|].
    specialize (E4 P). unfold paced in P. lia.
  - destruct E as (E1 & E2 & E3). destruct (IH _ _ _ _ H (E3 P)) as (k & K1 & K2 & K3 & K4). exists k. split; [lia|].
    split; [|auto]. intros j Hj. destruct (Nat.eq_dec j (btick s)) as [->|]; auto. apply K2. lia.
Qed.

(** ** The start *)

Lemma add_item_tick s i s' : badd_item s i = Ok s' -> eqt s s' /\ eqc s s' /\ bconf s' = bconf s.
Proof.
  assert (REC : forall s v n s', badd_record s v n = Ok s' -> bconf s' = bconf s).
  { clear. intros s v n s' H. unfold badd_record in H. apply bind_ok in H. destruct H as (u & _ & H). injection H as <-. reflexivity. }
  assert (BMP : forall ls s s', foldM bump_lit ls s = Ok s' -> bconf s' = bconf s).
  { clear. intros ls s s' H. apply (foldM_inv_ok bump_lit (fun x => bconf x = bconf s) ls s); auto.
    intros l b1 b2 _ H1 H2. unfold bump_lit in H2. apply bind_ok in H2. destruct H2 as (u & _ & H2).
    destruct (max_domain <? bdom b1 (fst l)); [discriminate|]. injection H2 as <-. exact H1. }
  destruct i as [d|ls]; cbn [badd_item]; intro H.
  - unfold badd_domain in H. destruct (d <? 0); [discriminate|]. injection H as <-. cbn. unfold eqt, eqc. cbn. auto.
  - unfold badd_clause in H. apply bind_ok in H. destruct H as (c & _ & H). cbv zeta in H.
    apply bind_ok in H. destruct H as (s1 & E1 & H).
    pose proof (BMP _ _ _ E1) as X3. pose proof (bumps_eqc _ _ _ E1) as X2. apply bumps_eqt in E1.
    set (s2 := if Nat.eqb (length c) 1 then set_bulist s1 (bulist s1 ++ [length (bcl s)]) else s1) in *.
    assert (Y : eqt s1 s2 /\ eqc s1 s2 /\ bconf s2 = bconf s1) by (unfold s2; destruct (Nat.eqb _ 1); unfold eqt, eqc; cbn; auto).
    destruct Y as (Y1 & Y2 & Y3). clearbody s2.
    destruct c as [|a c']; [discriminate|]. apply bind_ok in H. destruct H as (s3 & E3 & H).
    pose proof (REC _ _ _ _ E3) as Z3. pose proof (record_eqc _ _ _ _ E3) as Z2. apply record_eqt in E3.
    assert (W : eqt s s3 /\ eqc s s3 /\ bconf s3 = bconf s).
    { split; [exact (eqt_trans _ _ _ E1 (eqt_trans _ _ _ Y1 E3))|]. split; [exact (eqc_trans _ _ _ X2 (eqc_trans _ _ _ Y2 Z2))|].
      cbn in Z3. rewrite Z3, Y3, X3. reflexivity. }
    destruct W as (W1 & W2 & W3). destruct c' as [|b c'']; [injection H as <-; auto|].
    pose proof (REC _ _ _ _ H) as Z3'. pose proof (record_eqc _ _ _ _ H) as Z2'. apply record_eqt in H.
    split; [exact (eqt_trans _ _ _ W1 H)|]. split; [exact (eqc_trans _ _ _ W2 Z2')|]. cbn in Z3'. congruence.
Qed.

Lemma build_tick is s : bbuild is = Ok s -> btick s = 0%nat /\ bdec s = 0 /\ bback s = 0 /\ bconf s = false.
Proof.
  intro H. assert (G : eqt binit s /\ eqc binit s /\ bconf s = false).
  { apply (foldM_inv_ok badd_item (fun s => eqt binit s /\ eqc binit s /\ bconf s = false) is binit); auto; [unfold eqt, eqc; auto|].
    intros i b1 b2 _ (H1 & H2 & H3) E. apply add_item_tick in E. destruct E as (E1 & E2 & E3).
    split; [exact (eqt_trans _ _ _ H1 E1)|]. split; [exact (eqc_trans _ _ _ H2 E2)|congruence]. }
  destruct G as ((G1 & G2) & (G3 & _) & G4). auto.
Qed.

Theorem bsolve_clock fuel cf clk r p rep s : bsolve fuel cf clk r p = Ok (rep, s) ->
  exists k, (forall j, (j < k)%nat -> clk j = false) /\ (br_verdict rep = TIMEOUT <-> clk k = true) /\
    br_decisions rep <= Z.of_nat k <= br_decisions rep + br_backtracks rep + 1.
Proof.
  unfold bsolve. intro H. apply bind_ok in H. destruct H as (s0 & E0 & H). destruct (build_tick _ _ E0) as (T & D & B & C).
  unfold bsolve_state in H. apply bind_ok in H. destruct H as ((v, s1) & E & H).
  destruct (loop_tick _ _ _ _ _ _ _ _ E) as (k & K1 & K2 & K3 & K4).
  { unfold paced. rewrite T, D, B, C. cbn. lia. }
  exists k. rewrite T in K2. assert (G : br_verdict rep = v /\ br_decisions rep = bdec s1 /\ br_backtracks rep = bback s1).
  { destruct v; [apply bind_ok in H; destruct H as (b & _ & H)| |]; injection H as <- <-; auto. }
  destruct G as (-> & -> & ->). split; [|auto]. intros j Hj. apply K2. lia.
Qed.
