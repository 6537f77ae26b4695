(** * The second solver: runs that end without a restart *)

From Coq Require Import Floats.SpecFloat.
From Verif Require Import Spec Outcome State ModelHeur ModelSearch ModelBuild ModelBit Base BitTrail BitInv
  BitResolve BitLearn BitLoop BitSpec BitBuild BitStep BitMany.

(** ** The counters of conflicts and restarts *)

Definition eqc (s s' : bst) : Prop := bback s' = bback s /\ brest s' = brest s.
Ltac ec := unfold eqc; cbn; auto.

Lemma eqc_trans s1 s2 s3 : eqc s1 s2 -> eqc s2 s3 -> eqc s1 s3.
Proof. unfold eqc. intuition congruence. Qed.

Lemma record_eqc s v n s' : badd_record s v n = Ok s' -> eqc s s'.
Proof. unfold badd_record. intro H. apply bind_ok in H. destruct H as (u & _ & H). injection H as <-. ec. Qed.

Lemma bumps_eqc ls s s' : foldM bump_lit ls s = Ok s' -> eqc s s'.
Proof.
  intro H. apply (foldM_inv_ok bump_lit (eqc s) ls s); auto; [ec|].
  intros l b1 b2 _ H1 H2. apply (eqc_trans _ b1); auto. unfold bump_lit in H2. apply bind_ok in H2. destruct H2 as (u & _ & H2).
  destruct (max_domain <? bdom b1 (fst l)); [discriminate|]. injection H2 as <-. ec.
Qed.

Lemma swap_eqc v n s s' : bswap v n s = Ok s' -> eqc s s'.
Proof.
  unfold bswap. intro H. apply bind_ok in H. destruct H as (c & _ & H). apply bind_ok in H. destruct H as (x & _ & H).
  destruct x; try (injection H as <-; ec).
  apply bind_ok in H. destruct H as (o & _ & H). destruct o as [l|]; [|injection H as <-; ec].
  destruct (fst (bw0 s n) =? v); [|discriminate]. apply bind_ok in H. destruct H as (s1 & E & H). injection H as <-.
  apply record_eqc in E. exact E.
Qed.

Lemma visit_eqc v n s s' : bvisit v n s = Ok s' -> eqc s s'.
Proof.
  unfold bvisit. intro H. apply bind_ok in H. destruct H as (c & _ & H). apply bind_ok in H. destruct H as (x & _ & H).
  destruct x; try (injection H as <-; ec);
    (apply bind_ok in H; destruct H as (y & _ & H); destruct y; try (injection H as <-; ec);
     (cbv zeta in H; apply bind_ok in H; destruct H as (z & _ & H);
      assert (S1 : eqc s (if fst (bw1 s n) =? v then bflip n s else s)) by (destruct (_ =? _); ec);
      destruct z; first [injection H as <-; exact S1|apply swap_eqc in H; eapply eqc_trans; [exact S1|exact H]])).
Qed.

Lemma update_eqc v ns : forall s s', bupdate v ns s = Ok s' -> eqc s s'.
Proof.
  induction ns as [|n ns IH]; intros s s' H; cbn [bupdate] in H; [injection H as <-; ec|].
  destruct (bconf s); [injection H as <-; ec|]. apply bind_ok in H. destruct H as (s1 & E & H).
  apply visit_eqc in E. apply IH in H. eapply eqc_trans; eauto.
Qed.

Lemma reduce_eqc s l s' : breduce s l = Ok s' -> eqc s s'.
Proof.
  unfold breduce. intros H. apply bind_ok in H. destruct H as (u & _ & H).
  destruct (Z.ldiff (bcur s (fst l)) (snd l) =? 0); [injection H as <-; ec|].
  apply update_eqc in H. exact H.
Qed.

Lemma prop_eqc fuel : forall s s', bprop fuel s = Ok s' -> eqc s s'.
Proof.
  induction fuel as [|f IH]; intros s s' H; [discriminate|]. cbn [bprop] in H.
  destruct (bconf s). { injection H as <-. ec. }
  destruct (bulist s) as [|n rest]; [injection H as <-; ec|].
  apply bind_ok in H. destruct H as (c & _ & H). apply bind_ok in H. destruct H as (x & _ & H).
  set (s1 := set_bulist (set_buc s (Some n)) rest) in *.
  assert (K1 : forall s', eqc s1 s' -> eqc s s') by (intros; auto).
  assert (RED : forall l, (let* s := breduce s1 l in bprop f (set_bunits s (bunits s + 1))) = Ok s' -> eqc s s').
  { intros l E. apply bind_ok in E. destruct E as (s2 & E & E'). apply reduce_eqc in E.
    apply IH in E'. apply K1. eapply eqc_trans; [exact E|exact E']. }
  destruct x; eauto; (destruct (Nat.ltb 1 (length c)); [|eauto];
    apply bind_ok in H; destruct H as (y & _ & H); destruct y; eauto).
Qed.

Lemma learn_eqc cf s q a b s' : blearn cf s q a b = Ok s' -> eqc s s'.
Proof.
  unfold blearn. cbv zeta. intros H. apply bind_ok in H. destruct H as (s1 & E1 & H).
  apply bind_ok in H. destruct H as (s2 & E2 & H). apply bind_ok in H. destruct H as (s3 & E3 & H).
  destruct (blen cf); [|discriminate]. injection H as <-.
  apply record_eqc in E1. apply bumps_eqc in E3.
  assert (S2 : eqc s1 s2).
  { destruct (Nat.ltb 1 (length q)); [apply record_eqc in E2; auto|]. injection E2 as <-. ec. }
  exact (eqc_trans _ _ _ (eqc_trans _ _ _ E1 S2) E3).
Qed.

Lemma analyze_eqc fuel cf : forall s q a b fresh s' r, banalyze fuel cf s q a b fresh = Ok (s', r) -> eqc s s'.
Proof.
  induction fuel as [|f IH]; intros s q a b fresh s' r H; [discriminate|]. cbn [banalyze] in H.
  apply bind_ok in H. destruct H as (p & _ & H). destruct p.
  - destruct fresh; [|discriminate]. apply bind_ok in H. destruct H as (s1 & E & H). injection H as <- <-.
    eapply learn_eqc; eauto.
  - apply bind_ok in H. destruct H as (x & _ & H). destruct (nreason x) as [n|]; [|discriminate].
    apply bind_ok in H. destruct H as (c & _ & H). apply bind_ok in H. destruct H as (w & _ & H). eapply IH; eauto.
Qed.

Lemma undo_eqc s : eqc s (bundo s).
Proof.
  unfold bundo. generalize (zrange 1 (bnv s)) as vs. intros vs. revert s. induction vs as [|v vs IH]; intros s; [ec|].
  cbn [fold_left]. eapply eqc_trans; [|apply IH]. unfold bundo_var.
  destruct (bpop (blevel s) (bnodes s v) (bcur s v) (baix s)) as ((ns & cur) & aix). ec.
Qed.

Lemma choose_eqc cf s s' l : bchoose cf s = Ok (s', l) -> eqc s s'.
Proof.
  unfold bchoose, bchoose_vsids. intro H. destruct (bvsids cf); apply bind_ok in H; destruct H as (x & _ & H);
    injection H as <- _; ec.
Qed.

(** ** The same run without restarts, and with a compiler that returns from learnClause *)

Definition whole (cf : bcfg) : bcfg := mkBcfg (bvsids cf) true.

Lemma learn_whole cf s q a b s' : blearn cf s q a b = Ok s' -> blearn (whole cf) s q a b = Ok s'.
Proof.
  unfold blearn. cbv zeta. intros H. apply bind_ok in H. destruct H as (s1 & E1 & H). rewrite E1. cbn [bind].
  apply bind_ok in H. destruct H as (s2 & E2 & H). rewrite E2. cbn [bind].
  apply bind_ok in H. destruct H as (s3 & E3 & H). rewrite E3. cbn [bind].
  destruct (blen cf); [exact H|discriminate].
Qed.

Lemma analyze_whole fuel cf : forall s q a b fresh x, banalyze fuel cf s q a b fresh = Ok x ->
  banalyze fuel (whole cf) s q a b fresh = Ok x.
Proof.
  induction fuel as [|f IH]; intros s q a b fresh y H; [discriminate|]. cbn [banalyze] in *.
  apply bind_ok in H. destruct H as (p & E & H). rewrite E. cbn [bind]. destruct p.
  - destruct fresh; [|discriminate]. apply bind_ok in H. destruct H as (s1 & E1 & H).
    rewrite (learn_whole cf s q a b s1 E1). exact H.
  - apply bind_ok in H. destruct H as (x & Ex & H). rewrite Ex. cbn [bind]. destruct (nreason x) as [n|]; [|discriminate].
    apply bind_ok in H. destruct H as (c & Ec & H). rewrite Ec. cbn [bind].
    apply bind_ok in H. destruct H as (w & Ew & H). rewrite Ew. cbn [bind]. apply IH. exact H.
Qed.

Lemma conflict_whole fuel cf r rc s s' rc' : bconflict fuel cf r rc s = Ok (s', rc') -> 0 <= bback s ->
  bback s' = bback s + 1 /\ brest s <= brest s' /\
  (brest s' = brest s -> rc' = rc /\ bconflict fuel (whole cf) 0 0 s = Ok (s', 0)).
Proof.
  unfold bconflict. intros H P. apply bind_ok in H. destruct H as (ls & E & H). rewrite E. cbn [bind]. clear E.
  apply bind_ok in H. destruct H as ((s1, (q, b)) & E & H). rewrite (analyze_whole _ _ _ _ _ _ _ _ E). cbn [bind].
  apply analyze_eqc in E. destruct E as (E1 & E2).
  apply bind_ok in H. destruct H as (lev & E & H). rewrite E. cbn [bind]. clear E. cbv zeta in *.
  set (s2 := set_bconf (set_bback (set_blevel s1 lev) (bback (set_blevel s1 lev) + 1)) false) in *.
  assert (B2 : bback s2 = bback s + 1) by (cbn; lia).
  assert (R2 : brest s2 = brest s) by (cbn; lia).
  destruct (undo_eqc s2) as (U1 & U2).
  destruct (bback s2 =? rc); injection H as <- <-.
  - cbn [set_blevel set_bulist set_brest bback brest]. split; [lia|]. split; [lia|]. intro. lia.
  - cbn [set_bulist bback brest]. split; [lia|]. split; [lia|]. intros _. split; [auto|].
    destruct (Z.eqb_spec (bback s2) 0); [lia|]. reflexivity.
Qed.

Lemma iter_whole fuel cf clk r rc s q : biter fuel cf clk r rc s = Ok q -> 0 <= bback s ->
  let s' := match q with inl (_, s') => s' | inr (_, s') => s' end in
  0 <= bback s' /\ brest s <= brest s' /\
  (brest s' = brest s -> biter fuel (whole cf) clk 0 0 s =
    Ok (match q with inl x => inl x | inr (_, s') => inr (0, s') end) /\
    match q with inl _ => True | inr (rc', _) => rc' = rc end).
Proof.
  unfold biter. intros H P. set (s0 := set_btick s (S (btick s))) in *.
  destruct (clk (btick s)); [injection H as <-; cbn; split; [auto|]; split; [lia|auto]|].
  destruct (bconf s0 && (blevel s0 =? 0)); [injection H as <-; cbn; split; [auto|]; split; [lia|auto]|].
  apply bind_ok in H. destruct H as ((s1, rc1) & E1 & H).
  assert (C1 : 0 <= bback s1 /\ brest s <= brest s1 /\ (brest s1 = brest s -> rc1 = rc /\
    (if bconf s0 then bconflict fuel (whole cf) 0 0 s0 else Ok (s0, 0)) = Ok (s1, 0))).
  { destruct (bconf s0).
    - destruct (conflict_whole fuel cf r rc s0 s1 rc1 E1 P) as (H1 & H2 & H3). change (bback s0) with (bback s) in H1.
      split; [lia|]. auto.
    - injection E1 as <- <-. cbn. split; [auto|]. split; [lia|auto]. }
  clear E1. destruct C1 as (P1 & L1 & C1).
  apply bind_ok in H. destruct H as (s2 & E2 & H).
  assert (C2 : eqc s1 s2).
  { destruct (bulist s1); [injection E2 as <-; ec|]. apply prop_eqc in E2; auto. }
  destruct C2 as (C2 & C2').
  destruct (bconf s2) eqn:CF.
  { injection H as <-. cbv zeta. split; [lia|]. split; [lia|]. intro Q. destruct C1 as (-> & ->); [lia|]. cbn [bind].
    rewrite E2. cbn [bind]. rewrite CF. auto. }
  apply bind_ok in H. destruct H as ((s3, l) & E3 & H). pose proof (choose_eqc _ _ _ _ E3) as (C3 & C3').
  destruct (fst l =? -1) eqn:EL.
  { injection H as <-. cbv zeta. split; [lia|]. split; [lia|]. intro Q. destruct C1 as (-> & ->); [lia|]. cbn [bind].
    rewrite E2. cbn [bind]. rewrite CF. change (bchoose (whole cf) s2) with (bchoose cf s2). rewrite E3. cbn [bind]. rewrite EL. auto. }
  apply bind_ok in H. destruct H as (s4 & E4 & H). injection H as <-. pose proof (reduce_eqc _ _ _ E4) as (C4 & C4').
  cbn in C4, C4'. cbv zeta. split; [lia|]. split; [lia|]. intro Q. destruct C1 as (-> & ->); [lia|]. cbn [bind].
  rewrite E2. cbn [bind]. rewrite CF. change (bchoose (whole cf) s2) with (bchoose cf s2). rewrite E3. cbn [bind]. rewrite EL.
  rewrite E4. auto.
Qed.

Lemma loop_whole fuel cf clk r : forall rc s v s', bloop fuel cf clk r rc s = Ok (v, s') -> 0 <= bback s ->
  brest s <= brest s' /\ (brest s' = brest s -> bloop fuel (whole cf) clk 0 0 s = Ok (v, s')).
Proof.
  induction fuel as [|f IH]; intros rc s v s' H P; [discriminate|]. cbn [bloop] in *.
  apply bind_ok in H. destruct H as (q & E & H). destruct (iter_whole _ _ _ _ _ _ _ E P) as (P1 & L1 & Q1). cbv zeta in *.
  destruct q as [(v1, s1)|(rc1, s1)].
  - injection H as <- <-. split; [auto|]. intro Q. destruct (Q1 Q) as (-> & _). reflexivity.
  - destruct (IH rc1 s1 v s' H P1) as (L2 & Q2). split; [lia|]. intro Q. destruct Q1 as (-> & ->); [lia|]. cbn [bind].
    apply Q2. lia.
Qed.

Lemma loop_mono f clk cf r : forall f' rc s x, (f <= f')%nat -> bloop f cf clk r rc s = Ok x -> bloop f' cf clk r rc s = Ok x.
Proof.
  induction f as [|f IH]; intros f' rc s x L H; [discriminate|]. destruct f' as [|f']; [lia|]. cbn [bloop] in *.
  apply bind_ok in H. destruct H as (q & E & H). rewrite (iter_mono (S f) (S f') _ _ _ _ _ _ L E). cbn [bind].
  destruct q as [y|(rc1, s1)]; [auto|]. apply IH; [lia|auto].
Qed.

(** ** The answers *)

Definition right_report (p : problem) (clk : nat -> bool) (rep : breport) (s : bst) : Prop :=
  match br_verdict rep with
  | SAT => map fst (br_model rep) = zrange 0 (nvars p + 1) /\
      (forall v m, In (v, m) (br_model rep) -> v <> 0 -> exists d, 0 <= d < domsize p v /\ has_value m d) /\
      (forall v m d, In (v, m) (br_model rep) -> has_value m d -> v <> 0 /\ 0 <= d < domsize p v) /\
      (forall a, picks (br_model rep) a -> is_model p a) /\ br_verified rep = Some true
  | UNSAT => ~ satisfiable p
  | TIMEOUT => exists j, clk j = true
  end /\
  br_variables rep = nvars p /\ br_restarts rep = 0 /\
  br_clauses rep = Z.of_nat (length (clauses p)) + br_backtracks rep /\ 0 <= br_backtracks rep /\
  forall c, In c (bcl s) -> forall a, is_model p a -> set_clause_holds a c.

Theorem bit_any p cf clk r : wf p -> fits64 p -> r <= 0 -> blen cf = true ->
  exists N, (forall fuel, (N <= fuel)%nat -> bsolve fuel cf clk r p = Undef OobAtom) \/
    exists rep s, (forall fuel, (N <= fuel)%nat -> bsolve fuel cf clk r p = Ok (rep, s)) /\ right_report p clk rep s.
Proof.
  intros W FI R LEN. destruct (build_ok p W FI) as (s0 & EB & HB & EC).
  assert (NVn : 0 <= nvars p) by (unfold nvars; lia).
  destruct (loop_any (nvars p) (FF p) (domsize p) (MM p) (FF_ne p W FI) (F_64 _ _ _ (FF_DM p W FI) (DM_64' p W FI)) (MM_F p W FI) NVn (FF_0 p)
    (FF_DM p W FI) (DM_64' p W FI) (map (convC p) (clauses p)) cf clk r LEN R s0 (start_any p s0 EB HB) EC) as (N & [HL|(v & s & HL & HF)]).
  - apply HB.
  - apply HB.
  - exists N. left. intros fuel Hf. unfold bsolve. rewrite EB. cbn [bind]. unfold bsolve_state. rewrite HL by auto. reflexivity.
  - exists N. right. destruct (run_fin p W FI cf clk r s0 N v s EB HL HF) as (rep & H). exists rep, s. exact H.
Qed.

Theorem bit_ends p fuel cf clk r rep s : wf p -> fits64 p -> bsolve fuel cf clk r p = Ok (rep, s) -> br_restarts rep = 0 ->
  right_report p clk rep s.
Proof.
  intros W FI H RS. destruct (bit_any p (whole cf) clk 0 W FI ltac:(lia) eq_refl) as (N & D).
  assert (H' : bsolve (Nat.max fuel N) (whole cf) clk 0 p = Ok (rep, s)).
  { destruct (build_ok p W FI) as (s0 & EB & HB & EC). unfold bsolve in *. rewrite EB in *. cbn [bind] in *.
    unfold bsolve_state in *. apply bind_ok in H. destruct H as ((v, s1) & EL & H).
    assert (E1 : brest s1 = 0).
    { destruct v; try (injection H as <- <-; exact RS).
      apply bind_ok in H. destruct H as (b & _ & H). injection H as <- <-. exact RS. }
    destruct (loop_whole _ _ _ _ _ _ _ _ EL) as (_ & Q); [rewrite (bu_back p s0 HB); lia|].
    assert (E2 : bloop (Nat.max fuel N) (whole cf) clk 0 0 s0 = Ok (v, s1)).
    { apply (loop_mono fuel); [lia|]. apply Q. rewrite (bu_rest p s0 HB). auto. }
    rewrite E2. cbn [bind]. exact H. }
  destruct D as [D|(rep' & s' & D & P)]; rewrite D in H' by lia; [discriminate|].
  injection H' as <- <-. exact P.
Qed.

(** ** As stated in the properties *)

Lemma some_set p (rep : breport) : map fst (br_model rep) = zrange 0 (nvars p + 1) ->
  (forall v m, In (v, m) (br_model rep) -> v <> 0 -> exists d, 0 <= d < domsize p v /\ has_value m d) ->
  forall v, 1 <= v <= nvars p -> exists m d, In (v, m) (br_model rep) /\ has_value m d.
Proof.
  intros E H v Hv. assert (I : In v (map fst (br_model rep))) by (rewrite E; apply in_zrange; lia).
  apply in_map_iff in I. destruct I as ((u, m) & Eu & I). cbn in Eu. subst u.
  destruct (H v m I ltac:(lia)) as (d & _ & Hd). eauto.
Qed.

Theorem bit_outcome p cf clk r : wf p -> fits64 p -> r <= 0 -> blen cf = true ->
  exists N, (forall fuel, (N <= fuel)%nat -> bsolve fuel cf clk r p = Undef OobAtom) \/
    exists rep s, (forall fuel, (N <= fuel)%nat -> bsolve fuel cf clk r p = Ok (rep, s)) /\
      match br_verdict rep with
      | SAT => (forall v, 1 <= v <= nvars p -> exists m d, In (v, m) (br_model rep) /\ has_value m d) /\
          (forall a, picks (br_model rep) a -> is_model p a) /\ br_verified rep = Some true
      | UNSAT => ~ satisfiable p
      | TIMEOUT => exists j, clk j = true
      end.
Proof.
  intros W FI R LEN. destruct (bit_any p cf clk r W FI R LEN) as (N & [H|(rep & s & H & V & _)]); exists N; [left; auto|].
  right. exists rep, s. split; auto. destruct (br_verdict rep); auto. destruct V as (V1 & V2 & V3 & V4 & V5).
  split; [apply some_set; auto|auto].
Qed.

Theorem bit_finished p fuel cf clk r rep s : wf p -> fits64 p -> bsolve fuel cf clk r p = Ok (rep, s) -> br_restarts rep = 0 ->
  match br_verdict rep with
  | SAT => (forall v, 1 <= v <= nvars p -> exists m d, In (v, m) (br_model rep) /\ has_value m d) /\
      (forall a, picks (br_model rep) a -> is_model p a) /\ br_verified rep = Some true
  | UNSAT => ~ satisfiable p
  | TIMEOUT => exists j, clk j = true
  end /\
  (forall c, In c (bcl s) -> forall a, is_model p a -> set_clause_holds a c) /\
  br_variables rep = nvars p /\ br_clauses rep = Z.of_nat (length (clauses p)) + br_backtracks rep /\ 0 <= br_backtracks rep.
Proof.
  intros W FI H K. destruct (bit_ends p fuel cf clk r rep s W FI H K) as (V & V1 & _ & V3 & V4 & V5).
  split; [|auto]. destruct (br_verdict rep); auto. destruct V as (X1 & X2 & X3 & X4 & X5).
  split; [apply some_set; auto|auto].
Qed.
