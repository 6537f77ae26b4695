(** * The second solver: the theory that is built, and whole runs *)

From Coq Require Import Floats.SpecFloat.
From Verif Require Import Spec Outcome State ModelHeur ModelSearch ModelBuild ModelBit Base Scores BitTrail BitInv
  BitResolve BitLearn BitLoop BitSpec.

Lemma nodup_snoc {A} (l : list A) x : NoDup l -> ~ In x l -> NoDup (l ++ [x]).
Proof.
  intros H N. apply NoDup_rev in H. rewrite <- (rev_involutive (l ++ [x])). apply NoDup_rev.
  rewrite rev_app_distr. cbn. constructor; auto. rewrite <- in_rev. auto.
Qed.

(** ** The domains *)

Lemma domsize_snoc ds d v : 0 <= v <= Z.of_nat (length ds) + 1 ->
  domsize (mkProblem (ds ++ [d]) []) v = if v =? Z.of_nat (length ds) + 1 then d else domsize (mkProblem ds []) v.
Proof.
  intro H. unfold domsize. cbn [doms]. destruct (Z.eqb_spec v (Z.of_nat (length ds) + 1)) as [->|N].
  - destruct (Z.leb_spec 1 (Z.of_nat (length ds) + 1)); [|lia].
    rewrite app_nth2 by lia. replace (Z.to_nat (Z.of_nat (length ds) + 1 - 1) - length ds)%nat with 0%nat by lia. reflexivity.
  - destruct (Z.leb_spec 1 v); auto. rewrite app_nth1 by lia. auto.
Qed.

Lemma doms_ok ds : (forall d, In d ds -> 2 <= d <= max_domain) ->
  exists dm cur, foldM badd_item (map IDom ds) binit = Ok (set_bcur (set_bdom (set_bnv binit (Z.of_nat (length ds))) dm) cur) /\
    forall v, 0 <= v <= Z.of_nat (length ds) -> dm v = domsize (mkProblem ds []) v /\ cur v = Z.ones (domsize (mkProblem ds []) v).
Proof.
  induction ds as [|d ds IH] using rev_ind; intro H.
  - exists (fun _ => 0), (fun _ => 0). split; [reflexivity|]. cbn [length]. intros v Hv.
    assert (v = 0) as -> by lia. split; reflexivity.
  - destruct IH as (dm & cur & E & P); [intros x Hx; apply H; apply in_or_app; auto|].
    rewrite map_app, foldM_app, E. cbn [bind map foldM badd_item]. unfold badd_domain.
    pose proof (H d ltac:(apply in_or_app; right; left; auto)) as Hd.
    destruct (Z.ltb_spec d 0); [lia|]. destruct (Z.leb_spec d max_domain); [|lia]. cbn [bind].
    eexists _, _. split.
    + rewrite app_length. cbn [length]. rewrite Nat2Z.inj_add. reflexivity.
    + cbn. intros v Hv. rewrite app_length in Hv. cbn [length] in Hv. rewrite domsize_snoc by lia.
      destruct (Z.eqb_spec v (Z.of_nat (length ds) + 1)) as [->|N].
      * rewrite !upd1_same. auto.
      * rewrite !upd1_other by auto. apply P. lia.
Qed.

Section Build.
Variable p : problem.
Hypothesis WF : wf p.
Hypothesis SMALL : forall d, In d (doms p) -> d <= max_domain.

Definition FF (v : Z) : Z := Z.ones (domsize p v).
Definition MM (a : Z -> Z) : Prop := is_model p a.

Lemma dom_range v : 1 <= v <= nvars p -> 2 <= domsize p v <= max_domain.
Proof.
  intro H. unfold domsize. destruct (Z.leb_spec 1 v); [|lia].
  assert (I : In (nth (Z.to_nat (v - 1)) (doms p) 0) (doms p)) by (apply nth_In; unfold nvars in H; lia).
  destruct WF as (W & _). specialize (W _ I). specialize (SMALL _ I). lia.
Qed.

Lemma FF_in v i : 1 <= v <= nvars p -> inn i (FF v) <-> 0 <= i < domsize p v.
Proof. intro H. unfold FF. apply inn_ones. pose proof (dom_range v H). lia. Qed.

Lemma FF_ne v : 1 <= v <= nvars p -> exists i, inn i (FF v).
Proof. intro H. exists 0. apply FF_in; auto. pose proof (dom_range v H). lia. Qed.

Lemma FF_0 : FF 0 = 0.
Proof. reflexivity. Qed.

Lemma FF_DM v i : 1 <= v <= nvars p -> inn i (FF v) -> i < domsize p v.
Proof. intros H Hi. apply FF_in in Hi; auto. lia. Qed.

Lemma DM_64' v : 1 <= v <= nvars p -> domsize p v <= max_domain.
Proof. intro H. pose proof (dom_range v H). lia. Qed.

Lemma MM_F a v : MM a -> 1 <= v <= nvars p -> inn (a v) (FF v).
Proof. intros (L & _) H. apply FF_in; auto. Qed.

Notation base := (base (nvars p) FF (domsize p) MM).
Notation okL := (okL (nvars p) FF).
Notation okC := (okC (nvars p) FF MM).

(** ** The clauses *)

Definition conv (l : lit) : blit :=
  (lvar l, if leq l then Z.shiftl 1 (lval l) else Z.clearbit (FF (lvar l)) (lval l)).
Definition convC (c : clause) : bclause := fold_left add_atom (map conv c) [].

Lemma conv_in a l : wf_lit p l -> 0 <= a (lvar l) < domsize p (lvar l) ->
  inn (a (fst (conv l))) (snd (conv l)) <-> lit_holds a l.
Proof.
  intros (H1 & H2) Ha. unfold conv, lit_holds. cbn [fst snd]. destruct (leq l).
  - apply inn_shiftl. lia.
  - rewrite inn_clearbit, FF_in by auto. intuition.
Qed.

Lemma conv_okL l : wf_lit p l -> okL (conv l).
Proof.
  intros (H1 & H2). unfold conv. split; [auto|]. cbn [fst snd]. pose proof (dom_range _ H1) as DR. split.
  - destruct (leq l).
    + apply (inn_nonzero (lval l)). apply inn_shiftl; lia.
    + destruct (Z.eq_dec (lval l) 0).
      * apply (inn_nonzero 1). apply inn_clearbit. rewrite FF_in by auto. lia.
      * apply (inn_nonzero 0). apply inn_clearbit. rewrite FF_in by auto. lia.
  - intros i Hi. destruct (leq l).
    + apply inn_shiftl in Hi; [|lia]. subst i. apply FF_in; auto.
    + apply inn_clearbit in Hi. apply Hi.
Qed.

Lemma convC_holds a c : (forall l, In l c -> wf_lit p l) -> legal p a -> bholds a (convC c) <-> clause_holds a c.
Proof.
  intros W L.
  assert (EQ : forall l, In l c -> (inn (a (fst (conv l))) (snd (conv l)) <-> lit_holds a l)).
  { intros l Hl. apply conv_in; auto. destruct (W l Hl) as (H & _). apply L; auto. }
  split.
  - intros (x & Hx & Ha). unfold convC in Hx.
    destruct (existsb (lit_holdsb a) c) eqn:E.
    + apply existsb_exists in E. destruct E as (l & Hl & El). exists l. split; auto.
      unfold lit_holdsb in El. unfold lit_holds. destruct (leq l); [apply Z.eqb_eq; auto|].
      apply negb_true_iff, Z.eqb_neq in El. auto.
    + exfalso. revert Ha. refine (add_atoms_all (fun y => ~ inn (a (fst y)) (snd y)) _ (map conv c) [] _ _ x Hx).
      * intros v m1 m2 H1 H2 H3. cbn [fst snd] in *. apply inn_lor in H3. tauto.
      * intros y [].
      * intros y Hy. apply in_map_iff in Hy. destruct Hy as (l & <- & Hl). rewrite EQ by auto. intro HH.
        assert (X : existsb (lit_holdsb a) c = true); [|congruence]. apply existsb_exists. exists l. split; auto.
        unfold lit_holdsb. unfold lit_holds in HH. destruct (leq l); [apply Z.eqb_eq; auto|].
        apply negb_true_iff, Z.eqb_neq. auto.
  - intros (l & Hl & Hh). apply (add_atoms_ex (fun y => inn (a (fst y)) (snd y))).
    + intros v m1 m2 H. cbn [fst snd] in *. apply inn_lor. auto.
    + intros v m1 m2 H. cbn [fst snd] in *. apply inn_lor. auto.
    + right. exists (conv l). split; [apply in_map; auto|]. apply EQ; auto.
Qed.

Lemma add_atoms_vars ls c v : In v (map fst (fold_left add_atom ls c)) <-> In v (map fst c) \/ In v (map fst ls).
Proof.
  revert c. induction ls as [|l ls IH]; intro c; cbn [fold_left map In]; [tauto|].
  rewrite IH, add_atom_vars. intuition.
Qed.

Lemma convC_vars c v : In v (map fst (convC c)) <-> exists l, In l c /\ lvar l = v.
Proof.
  unfold convC. rewrite add_atoms_vars. cbn [map In]. rewrite map_map. cbn [conv fst]. rewrite in_map_iff. firstorder.
Qed.

Lemma convC_one c : c <> [] -> length (convC c) = 1%nat <-> one_var c.
Proof.
  intro NE. assert (ND : NoDup (map fst (convC c))) by (apply (add_atoms_nodup (map conv c) []); constructor). split.
  - intros L l m Hl Hm. pose proof (proj2 (convC_vars c (lvar l)) (ex_intro _ l (conj Hl eq_refl))) as Il.
    pose proof (proj2 (convC_vars c (lvar m)) (ex_intro _ m (conj Hm eq_refl))) as Im.
    destruct (convC c) as [|x [|y q]]; cbn in L; try discriminate. destruct Il as [<-|[]], Im as [<-|[]]. auto.
  - intro O. destruct c as [|l0 c0] eqn:Ec; [congruence|]. rewrite <- Ec in *.
    assert (H0 : In l0 c) by (rewrite Ec; left; auto).
    assert (ALL : forall v, In v (map fst (convC c)) -> v = lvar l0).
    { intros v Hv. apply convC_vars in Hv. destruct Hv as (l & Hl & <-). apply O; auto. }
    pose proof (proj2 (convC_vars c (lvar l0)) (ex_intro _ l0 (conj H0 eq_refl))) as I0.
    destruct (convC c) as [|x [|y q]]; [destruct I0|reflexivity|]. exfalso. cbn [map] in ND. apply NoDup_cons_iff in ND. destruct ND as (N1 & _).
    apply N1. left. rewrite (ALL (fst x)) by (left; auto). rewrite (ALL (fst y)) by (right; left; auto). auto.
Qed.

Lemma convC_ok c : c <> [] -> (forall l, In l c -> wf_lit p l) -> In c (clauses p) -> okC (convC c).
Proof.
  intros NE W Hc. split; [|split; [|split]].
  - intro E. destruct c as [|l c]; [congruence|].
    pose proof (proj2 (convC_vars (l :: c) (lvar l)) (ex_intro _ l (conj (or_introl eq_refl) eq_refl))) as I0.
    rewrite E in I0. destruct I0.
  - apply add_atoms_nodup. constructor.
  - apply (add_atoms_all (fun y => okL y)).
    + intros v m1 m2 (Q1 & Q2 & Q3) (Q4 & Q5 & Q6). split; [auto|]. cbn [fst snd] in *. split.
      * destruct (nonzero_inn _ Q2) as (i & Hi). apply (inn_nonzero i). apply inn_lor. auto.
      * intros i Hi. apply inn_lor in Hi. destruct Hi; auto.
    + intros y [].
    + intros y Hy. apply in_map_iff in Hy. destruct Hy as (l & <- & Hl). apply conv_okL. auto.
  - intros a (L & Ha). apply convC_holds; auto.
Qed.

Lemma read_ok s : base s [] -> forall c acc, (forall l, In l c -> wf_lit p l) ->
  foldM (read_atom s) c acc = Ok (fold_left add_atom (map conv c) acc).
Proof.
  intro B. induction c as [|l c IH]; intros acc W; auto. cbn [foldM map fold_left].
  destruct (W l (or_introl eq_refl)) as (H1 & H2). pose proof (dom_range _ H1).
  assert (E : bit_lit s l = Ok (conv l)).
  { unfold bit_lit, conv. assert (BO : bit_ok (lval l) = true).
    { unfold bit_ok. destruct (Z.leb_spec 0 (lval l)), (Z.ltb_spec (lval l) max_domain); auto; lia. }
    rewrite BO. destruct (leq l); [auto|]. rewrite (bvar_ok _ _ _ _ s [] (lvar l) B) by lia. cbn [bind].
    rewrite (b_cur _ _ _ _ s [] B) by lia. reflexivity. }
  unfold read_atom at 1. rewrite E. cbn [bind]. apply IH. intros m Hm. apply W. right. auto.
Qed.

Record built (s : bst) : Prop := {
  bu_base : base s [];
  bu_lev : blevel s = 0;
  bu_conf : bconf s = false;
  bu_back : bback s = 0;
  bu_rest : brest s = 0;
  bu_u : forall n, In n (bulist s) <-> single s n;
  bu_ud : NoDup (bulist s)
}.

Lemma false_nil l : okL l -> ~ falseL FF [] l.
Proof. intros (_ & Hz & HF) Hf. destruct (nonzero_inn _ Hz) as (i & Hi). apply (Hf i Hi). cbn. auto. Qed.

Lemma clause_step s c : built s -> In c (clauses p) ->
  exists s', badd_clause s c = Ok s' /\ built s' /\ bcl s' = bcl s ++ [convC c].
Proof.
  intros [B LV CF BK RS BU BD] Hc. destruct WF as (_ & W). destruct (W c Hc) as (NE & WL).
  pose proof (convC_ok c NE WL Hc) as OC. pose proof OC as (NEq & NDq & OLq & HMq).
  unfold badd_clause. cbv zeta. rewrite (read_ok s B c [] WL). cbn [bind]. fold (convC c). set (q := convC c) in *.
  set (n := length (bcl s)).
  destruct (bump_ok (nvars p) FF (domsize p) DM_64' q (set_bcl s (bcl s ++ [q]))) as (sc & EB & NN); auto.
  { apply (b_nv _ _ _ _ s [] B). }
  { apply (b_dom _ _ _ _ s [] B). }
  { apply (b_sc _ _ _ _ s [] B). }
  rewrite EB. cbn [bind].
  destruct q as [|a q'] eqn:Eq; [congruence|]. rewrite <- Eq in *.
  set (s1 := set_bsc (set_bcl s (bcl s ++ [q])) sc).
  set (s2 := if Nat.eqb (length q) 1 then set_bulist s1 (bulist s1 ++ [n]) else s1).
  assert (Ha : In a q) by (rewrite Eq; left; auto).
  assert (Ra : 1 <= fst a <= nvars p) by (apply (OLq a Ha)).
  assert (BV : forall s0 v, bnv s0 = bnv s -> 1 <= v <= nvars p -> bvar s0 v = Ok tt).
  { intros s0 v E Hv. unfold bvar. rewrite E, (b_nv _ _ _ _ s [] B).
    destruct (Z.leb_spec 0 v), (Z.leb_spec v (nvars p)); auto; lia. }
  assert (S2 : bnv s2 = bnv s /\ bdom s2 = bdom s /\ bcur s2 = bcur s /\ bnodes s2 = bnodes s /\ brec s2 = brec s /\
    bcl s2 = bcl s ++ [q] /\ bw0 s2 = bw0 s /\ bw1 s2 = bw1 s /\ blevel s2 = blevel s /\ bconf s2 = bconf s /\
    baix s2 = baix s /\ bback s2 = bback s /\ brest s2 = brest s /\ bsc s2 = sc /\
    bulist s2 = if Nat.eqb (length q) 1 then bulist s ++ [n] else bulist s).
  { unfold s2. destruct (Nat.eqb (length q) 1); repeat split. }
  destruct S2 as (Z1 & Z2 & Z3 & Z4 & Z5 & Z6 & Z7 & Z8 & Z9 & Z10 & Z11 & Z12 & Z13 & Z14 & Z15).
  (* the final state *)
  assert (FIN : exists s3, (let s := set_bw0 s2 (updn (bw0 s2) n a) in
        let* s := badd_record s (fst a) n in
        match q' with
        | [] => Ok s
        | b :: _ => let s := set_bw1 s (updn (bw1 s) n b) in badd_record s (fst b) n
        end) = Ok s3 /\
      bnv s3 = bnv s /\ bdom s3 = bdom s /\ bcur s3 = bcur s /\ bnodes s3 = bnodes s /\
      bcl s3 = bcl s ++ [q] /\ bw0 s3 = updn (bw0 s) n a /\ blevel s3 = blevel s /\ bconf s3 = bconf s /\
      baix s3 = baix s /\ bback s3 = bback s /\ brest s3 = brest s /\ bsc s3 = sc /\ bulist s3 = bulist s2 /\
      (forall m, m <> n -> bw1 s3 m = bw1 s m) /\
      (forall v m, m <> n -> In m (brec s3 v) <-> In m (brec s v)) /\
      (forall v, ~ In n (brec s v) -> NoDup (brec s v) -> NoDup (brec s3 v)) /\
      (forall v, ~ In n (brec s v) -> (In n (brec s3 v) <-> v = fst a \/ length q <> 1%nat /\ v = fst (bw1 s3 n))) /\
      (length q <> 1%nat -> In (bw1 s3 n) q /\ fst a <> fst (bw1 s3 n))).
  { cbv zeta. unfold badd_record at 1. rewrite BV by (cbn; auto). cbn [bind].
    set (r1 := upd1 (brec s) (fst a) (n :: brec s (fst a))).
    assert (R1 : forall v m, m <> n -> In m (r1 v) <-> In m (brec s v)).
    { intros v m Nm. unfold r1. destruct (Z.eq_dec v (fst a)) as [->|Nv].
      - rewrite upd1_same. cbn. intuition congruence.
      - rewrite upd1_other by auto. tauto. }
    assert (R2 : forall v, ~ In n (brec s v) -> NoDup (brec s v) -> NoDup (r1 v)).
    { intros v Hn Hd. unfold r1. destruct (Z.eq_dec v (fst a)) as [->|Nv].
      - rewrite upd1_same. constructor; auto.
      - rewrite upd1_other by auto. auto. }
    assert (R3 : forall v, ~ In n (brec s v) -> (In n (r1 v) <-> v = fst a)).
    { intros v Hn. unfold r1. destruct (Z.eq_dec v (fst a)) as [->|Nv].
      - rewrite upd1_same. cbn. tauto.
      - rewrite upd1_other by auto. tauto. }
    destruct q' as [|b q''].
    - eexists. split; [reflexivity|]. cbn. rewrite Z1, Z2, Z3, Z4, Z5, Z6, Z7, Z8, Z9, Z10, Z11, Z12, Z13, Z14. fold r1.
      assert (L1 : length q = 1%nat) by (rewrite Eq; auto). rewrite L1.
      do 13 (split; [auto|]). split; [auto|]. split; [apply R1|]. split; [apply R2|]. split; [|congruence].
      intros v Hn. rewrite R3 by auto. intuition congruence.
    - assert (Hb : In b q) by (rewrite Eq; right; left; auto).
      assert (Nab : fst b <> fst a).
      { rewrite Eq in NDq. cbn [map] in NDq. apply NoDup_cons_iff in NDq. destruct NDq as (N1 & _). intro E. apply N1. left. auto. }
      assert (L1 : length q <> 1%nat) by (rewrite Eq; cbn; lia).
      assert (Rb : 1 <= fst b <= nvars p) by (apply (OLq b Hb)).
      unfold badd_record. rewrite BV by (cbn; auto). cbn [bind].
      eexists. split; [reflexivity|]. cbn. rewrite Z1, Z2, Z3, Z4, Z5, Z6, Z7, Z8, Z9, Z10, Z11, Z12, Z13, Z14. fold r1.
      do 13 (split; [auto|]). split; [intros m Nm; rewrite updn_other by auto; auto|].
      split; [|split; [|split]].
      + intros v m Nm. destruct (Z.eq_dec v (fst b)) as [->|Nv].
        * rewrite upd1_same. cbn [In]. rewrite R1 by auto. intuition congruence.
        * rewrite upd1_other by auto. apply R1; auto.
      + intros v Hn Hd. destruct (Z.eq_dec v (fst b)) as [->|Nv].
        * rewrite upd1_same. constructor; [|apply R2; auto]. rewrite R3 by auto. auto.
        * rewrite upd1_other by auto. apply R2; auto.
      + intros v Hn. rewrite updn_same. destruct (Z.eq_dec v (fst b)) as [->|Nv].
        * rewrite upd1_same. cbn [In]. tauto.
        * rewrite upd1_other by auto. rewrite R3 by auto. intuition congruence.
      + intros _. rewrite updn_same. auto. }
  destruct FIN as (s3 & E3 & G1 & G2 & G3 & G4 & G5 & G6 & G7 & G8 & G9 & G10 & G11 & G12 & G13 & G14 & G15 & G16 & G17 & G18).
  exists s3. split; [exact E3|]. split; [|exact G5].
  assert (NEW : forall m d, nth_error (bcl s3) m = Some d ->
    (m <> n /\ nth_error (bcl s) m = Some d) \/ (m = n /\ d = q)).
  { intros m d Em. rewrite G5 in Em. destruct (Nat.lt_trichotomy m n) as [L|[-> |L]].
    - left. split; [lia|]. rewrite nth_error_app1 in Em by auto. auto.
    - right. split; auto. unfold n in Em. rewrite nth_error_app2, Nat.sub_diag in Em by lia. cbn in Em. congruence.
    - exfalso. assert (LL : (m < length (bcl s ++ [q]))%nat) by (apply nth_error_Some; congruence).
      rewrite app_length in LL. cbn in LL. unfold n in L. lia. }
  assert (OLD : forall m d, nth_error (bcl s) m = Some d -> nth_error (bcl s3) m = Some d /\ m <> n).
  { intros m d Em. assert (L : (m < n)%nat) by (apply nth_error_Some; congruence). split; [|lia].
    rewrite G5, nth_error_app1; auto. }
  assert (GET : nth_error (bcl s3) n = Some q).
  { rewrite G5. unfold n. rewrite nth_error_app2, Nat.sub_diag by lia. auto. }
  assert (NI : forall v, 0 <= v <= nvars p -> ~ In n (brec s v)).
  { intros v Hv. rewrite (b_rec _ _ _ _ s [] B v n Hv). intros (d & Ed & _). apply OLD in Ed. tauto. }
  constructor; try congruence.
  - constructor.
    + rewrite G1. apply (b_nv _ _ _ _ s [] B).
    + rewrite G2. apply (b_dom _ _ _ _ s [] B).
    + rewrite G3. apply (b_cur _ _ _ _ s [] B).
    + rewrite G4. apply (b_nodes _ _ _ _ s [] B).
    + rewrite G9. apply (b_aix _ _ _ _ s [] B).
    + exact Logic.I.
    + intros m d Em. apply NEW in Em. destruct Em as [(_ & Em)|(_ & ->)]; auto. apply (b_cls _ _ _ _ s [] B m); auto.
    + intros m d Em. rewrite G6. apply NEW in Em. destruct Em as [(Nm & Em)|(-> & ->)].
      * rewrite updn_other, G14 by auto. apply (b_watch _ _ _ _ s [] B); auto.
      * rewrite updn_same. split; auto.
    + intros v m Hv. destruct (Nat.eq_dec m n) as [->|Nm].
      * rewrite G17, G6, updn_same by auto. split.
        -- intros [->|(L & ->)]; exists q; auto.
        -- intros (d & Ed & Hd). assert (d = q) by congruence. subst d. intuition.
      * rewrite G15, G6, updn_other, G14 by auto. rewrite (b_rec _ _ _ _ s [] B v m Hv).
        split; intros (d & Ed & Hd); exists d; split; auto.
        -- apply OLD; auto.
        -- apply NEW in Ed. destruct Ed as [(_ & Ed)|(Ed & _)]; [auto|congruence].
    + intros v Hv. apply G16; auto. apply (b_recd _ _ _ _ s [] B); auto.
    + intros m d k Em Ld Hk. cbn [cut filter]. rewrite G6. apply NEW in Em. destruct Em as [(Nm & Em)|(-> & ->)].
      * rewrite updn_other, G14 by auto. apply (good_nf (nvars p) FF (domsize p) MM).
        -- apply false_nil. apply (watch_lits _ _ _ _ s [] m d B Em).
        -- apply false_nil. apply (watch_lits _ _ _ _ s [] m d B Em). auto.
      * rewrite updn_same. destruct (G18 Ld) as (Hb & _). apply (good_nf (nvars p) FF (domsize p) MM); apply false_nil; auto.
    + rewrite G12. auto.
  - intro m. rewrite G13, Z15. unfold single.
    destruct (Nat.eqb_spec (length q) 1) as [L|L].
    + rewrite in_app_iff. rewrite BU. cbn [In]. split.
      * intros [(d & Ed & Ld)|[<-|[]]]; [|exists q; auto]. exists d. split; auto. apply OLD; auto.
      * intros (d & Ed & Ld). apply NEW in Ed. destruct Ed as [(_ & Ed)|(-> & _)]; [left; exists d; auto|auto].
    + rewrite BU. split; intros (d & Ed & Ld); exists d; split; auto.
      * apply OLD; auto.
      * apply NEW in Ed. destruct Ed as [(_ & Ed)|(_ & ->)]; [auto|congruence].
  - rewrite G13, Z15. destruct (Nat.eqb (length q) 1); auto.
    apply nodup_snoc; auto. intro Hi. apply BU in Hi. destruct Hi as (d & Ed & _). apply OLD in Ed. tauto.
Qed.

Lemma build_ok : exists s, bbuild (items_of p) = Ok s /\ built s /\ bcl s = map convC (clauses p).
Proof.
  unfold bbuild, items_of. rewrite foldM_app.
  assert (RG : forall d, In d (doms p) -> 2 <= d <= max_domain).
  { intros d Hd. split; [apply WF; auto|apply SMALL; auto]. }
  destruct (doms_ok (doms p) RG) as (dm & cur & E & P). rewrite E. cbn [bind].
  set (s0 := set_bcur (set_bdom (set_bnv binit (Z.of_nat (length (doms p)))) dm) cur).
  assert (B0 : built s0).
  { constructor; try reflexivity.
    - constructor; try reflexivity.
      + intros v Hv. apply (P v Hv).
      + intros v Hv. apply (P v Hv).
      + intros n c H. destruct n; discriminate.
      + intros n c H. destruct n; discriminate.
      + intros v n Hv. split; [intros []|]. intros (c & H & _). destruct n; discriminate.
      + intros v Hv. constructor.
      + intros n c k H. destruct n; discriminate.
    - intro n. split; [intros []|]. intros (c & H & _). destruct n; discriminate.
    - constructor. }
  assert (G : forall cs s, (forall c, In c cs -> In c (clauses p)) -> built s ->
    exists s', foldM badd_item (map ICls cs) s = Ok s' /\ built s' /\ bcl s' = bcl s ++ map convC cs).
  { induction cs as [|c cs IH]; intros s Hcs HB.
    - exists s. cbn. rewrite app_nil_r. auto.
    - destruct (clause_step s c HB (Hcs c (or_introl eq_refl))) as (s1 & E1 & HB1 & C1).
      destruct (IH s1) as (s' & E' & HB' & C'); auto; [intros d Hd; apply Hcs; right; auto|].
      exists s'. cbn [map foldM badd_item]. rewrite E1. cbn [bind]. split; auto. split; auto.
      rewrite C', C1, <- app_assoc. reflexivity. }
  destruct (G (clauses p) s0 (fun c H => H) B0) as (s & E' & HB & C). exists s. auto.
Qed.

Lemma start_inv s : built s -> bcl s = map convC (clauses p) -> lone p ->
  Inv (nvars p) FF (domsize p) MM (map convC (clauses p)) s [].
Proof.
  intros [B LV CF BK RS BU BD] EC LO. split; [|split; [|split]].
  - left. split; [auto|]. split; [auto|]. split; [auto|].
    assert (SG : forall n m, single s n -> single s m -> n = m).
    { intros n m (c & Ec & Lc) (d & Ed & Ld). rewrite EC in Ec, Ed.
      rewrite nth_error_map in Ec, Ed.
      destruct (nth_error (clauses p) n) as [c0|] eqn:En; [|discriminate].
      destruct (nth_error (clauses p) m) as [d0|] eqn:Em; [|discriminate]. cbn in Ec, Ed.
      injection Ec as <-. injection Ed as <-. apply (LO n m c0 d0); auto.
      - apply convC_one; auto. apply WF. apply nth_error_In in En. auto.
      - apply convC_one; auto. apply WF. apply nth_error_In in Em. auto. }
    split; [|split].
    + intros n c En Ln. split.
      * intro Hi. apply BU in Hi. destruct Hi as (d & Ed & Ld). congruence.
      * left. destruct (watch_lits _ _ _ _ s [] n c B En) as (_ & H0 & H1). destruct (H1 Ln) as (_ & H2 & _).
        apply (good_nf (nvars p) FF (domsize p) MM); apply false_nil; auto.
    + destruct (bulist s) as [|n u] eqn:EU.
      * left. intros m c Em Lm. exfalso. apply (proj2 (BU m)). exists c. auto.
      * right. exists n. assert (SN : single s n) by (apply BU; left; auto). split.
        -- destruct u as [|m u]; auto. exfalso. assert (SM : single s m) by (apply BU; right; left; auto).
           apply NoDup_cons_iff in BD. destruct BD as (N1 & _). apply N1. left. auto.
        -- split; [auto|]. split.
           ++ destruct SN as (c & Ec & _). apply false_nil. apply (watch_lits _ _ _ _ s [] n c B Ec).
           ++ intros m Nm c Em Lm. exfalso. apply Nm. apply SG; auto. exists c. auto.
    + intros n Hn. apply BU in Hn. destruct Hn as (c & Ec & _). apply nth_error_Some. congruence.
  - intros H. lia.
  - auto.
  - exists []. rewrite app_nil_r. split; auto.
Qed.

(** What is printed at the end of the loop. *)
Lemma run_fin cf clk r s0 N v s : bbuild (items_of p) = Ok s0 ->
  (forall fuel, (N <= fuel)%nat -> bloop fuel cf clk r r s0 = Ok (v, s)) ->
  Fin (nvars p) FF (domsize p) MM (map convC (clauses p)) clk v s ->
  exists rep, (forall fuel, (N <= fuel)%nat -> bsolve fuel cf clk r p = Ok (rep, s)) /\
    match br_verdict rep with
    | SAT => map fst (br_model rep) = zrange 0 (nvars p + 1) /\
        (forall v m, In (v, m) (br_model rep) -> v <> 0 -> exists d, 0 <= d < domsize p v /\ has_value m d) /\
        (forall v m d, In (v, m) (br_model rep) -> has_value m d -> v <> 0 /\ 0 <= d < domsize p v) /\
        (forall a, picks (br_model rep) a -> is_model p a) /\ br_verified rep = Some true
    | UNSAT => ~ satisfiable p
    | TIMEOUT => exists j, clk j = true
    end /\
    br_variables rep = nvars p /\ br_restarts rep = 0 /\
    br_clauses rep = Z.of_nat (length (clauses p)) + br_backtracks rep /\ 0 <= br_backtracks rep /\
    forall c, In c (bcl s) -> forall a, is_model p a -> set_clause_holds a c.
Proof.
  intros EB HL ((T & B & HT) & HV & RS & L & EL & BK).
  assert (CONS : forall c, In c (bcl s) -> forall a, is_model p a -> set_clause_holds a c).
  { intros c Hc a Ha. apply In_nth_error in Hc. destruct Hc as (n & En).
    destruct (b_cls _ _ _ _ s T B n c En) as (_ & _ & _ & H). destruct (H a Ha) as ((u, m) & Hl & Hi). exists u, m. auto. }
  assert (CNT : Z.of_nat (length (bcl s)) = Z.of_nat (length (clauses p)) + bback s).
  { rewrite EL, app_length, map_length, BK. lia. }
  assert (RUN : forall rep, bsolve_state N cf clk r s0 = Ok (rep, s) ->
     forall fuel, (N <= fuel)%nat -> bsolve fuel cf clk r p = Ok (rep, s)).
  { intros rep H fuel Hf. unfold bsolve. rewrite EB. cbn [bind]. rewrite <- H. unfold bsolve_state.
    rewrite (HL fuel Hf), (HL N (Nat.le_refl _)). reflexivity. }
  destruct v.
  - assert (VE : bverify s = Ok true) by (apply (verify_ok (nvars p) FF (domsize p) MM s T); auto).
    eexists. split.
    { apply RUN. unfold bsolve_state. rewrite (HL N (Nat.le_refl _)). cbn [bind]. rewrite VE. cbn [bind]. reflexivity. }
    cbn [br_verdict br_model br_verified br_variables br_restarts br_clauses br_backtracks].
    split; [|split; [apply (b_nv _ _ _ _ s T B)|split; [auto|split; [auto|split; [lia|auto]]]]].
    assert (MD : forall u m, In (u, m) (bprint s) -> 0 <= u <= nvars p /\ m = D FF T u).
    { intros u m H. unfold bprint in H. apply in_map_iff in H. destruct H as (i & E & Hi). injection E as <- <-.
      apply in_zrange in Hi. rewrite (b_nv _ _ _ _ s T B) in Hi. split; [lia|]. apply (b_cur _ _ _ _ s T B). lia. }
    split; [|split; [|split; [|split; [|auto]]]].
    + unfold bprint. rewrite map_map. cbn [fst]. rewrite map_id, (b_nv _ _ _ _ s T B). auto.
    + intros u m Hu N0. destruct (MD u m Hu) as (Ru & ->).
      destruct (D_nonempty (nvars p) FF (bcl s) T u (b_ok _ _ _ _ s T B) (FF_ne u ltac:(lia))) as (d & Hd).
      exists d. split; auto. apply D_full in Hd. apply FF_in in Hd; lia.
    + intros u m d Hu Hd. destruct (MD u m Hu) as (Ru & ->). apply D_full in Hd.
      destruct (Z.eq_dec u 0) as [->|N0].
      * rewrite FF_0 in Hd. unfold inn in Hd. rewrite Z.bits_0 in Hd. discriminate.
      * split; auto. apply FF_in in Hd; lia.
    + intros a Ha.
      assert (Hcur : forall u, 1 <= u <= nvars p -> inn (a u) (bcur s u)).
      { intros u Hu. apply (Ha u (bcur s u)); [|lia]. unfold bprint.
        apply (in_map (fun i => (i, bcur s i))). apply in_zrange. rewrite (b_nv _ _ _ _ s T B). lia. }
      assert (LG : legal p a).
      { intros u Hu. apply FF_in; auto. specialize (Hcur u Hu). rewrite (b_cur _ _ _ _ s T B) in Hcur by lia.
        apply D_full in Hcur. auto. }
      split; [auto|]. intros c Hc. apply convC_holds; auto.
      { intros l Hl. destruct WF as (_ & W). apply (W c Hc). auto. }
      apply (settled_holds (nvars p) FF (domsize p) MM s T); auto. rewrite EL. apply in_or_app. left. apply in_map. auto.
  - eexists. split.
    { apply RUN. unfold bsolve_state. rewrite (HL N (Nat.le_refl _)). cbn [bind]. reflexivity. }
    cbn [br_verdict br_model br_verified br_variables br_restarts br_clauses br_backtracks].
    split; [auto|split; [apply (b_nv _ _ _ _ s T B)|split; [auto|split; [auto|split; [lia|auto]]]]].
  - eexists. split.
    { apply RUN. unfold bsolve_state. rewrite (HL N (Nat.le_refl _)). cbn [bind]. reflexivity. }
    cbn [br_verdict br_model br_verified br_variables br_restarts br_clauses br_backtracks].
    split; [|split; [apply (b_nv _ _ _ _ s T B)|split; [auto|split; [auto|split; [lia|auto]]]]].
    intros (a & Ha). apply (HV a Ha).
Qed.

Theorem bit_run cf clk r : blen cf = true -> r <= 0 -> lone p ->
  exists N rep s, (forall fuel, (N <= fuel)%nat -> bsolve fuel cf clk r p = Ok (rep, s)) /\
    match br_verdict rep with
    | SAT => map fst (br_model rep) = zrange 0 (nvars p + 1) /\
        (forall v m, In (v, m) (br_model rep) -> v <> 0 -> exists d, 0 <= d < domsize p v /\ has_value m d) /\
        (forall v m d, In (v, m) (br_model rep) -> has_value m d -> v <> 0 /\ 0 <= d < domsize p v) /\
        (forall a, picks (br_model rep) a -> is_model p a) /\ br_verified rep = Some true
    | UNSAT => ~ satisfiable p
    | TIMEOUT => exists j, clk j = true
    end /\
    br_variables rep = nvars p /\ br_restarts rep = 0 /\
    br_clauses rep = Z.of_nat (length (clauses p)) + br_backtracks rep /\ 0 <= br_backtracks rep /\
    forall c, In c (bcl s) -> forall a, is_model p a -> set_clause_holds a c.
Proof.
  intros LEN R0 LO. destruct build_ok as (s0 & EB & HB & EC). pose proof (start_inv s0 HB EC LO) as HI.
  assert (NVn : 0 <= nvars p) by (unfold nvars; lia).
  destruct (loop_ok (nvars p) FF (domsize p) MM NVn FF_ne FF_0 FF_DM DM_64' MM_F (map convC (clauses p)) cf clk r LEN R0
    _ s0 [] (Nat.le_refl _) HI) as (N & v & s & HL & HF).
  destruct (run_fin cf clk r s0 N v s EB HL HF) as (rep & H). exists N, rep, s. exact H.
Qed.

End Build.
