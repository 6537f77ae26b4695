(** * The second solver: the scores and the choice by score *)

From Coq Require Import Floats.SpecFloat.
From Verif Require Import Spec Outcome State ModelHeur ModelSearch ModelBuild ModelBit Base Scores BitTrail BitInv
  BitResolve BitLearn BitLoop BitSpec BitBuild BitSafe ScoreSpec BitStepSpec BitNode.

Lemma plus_one_eq x : f64_add x f64_one = plus_one x.
Proof. reflexivity. Qed.

Lemma half_eq x : f64_div x f64_two = half x.
Proof. reflexivity. Qed.

(** ** What the steps without a conflict leave unchanged *)

Definition samev (s s' : bst) : Prop :=
  bnv s' = bnv s /\ bcl s' = bcl s /\ bdom s' = bdom s /\ bsc s' = bsc s.

Lemma samev_refl s : samev s s.
Proof. unfold samev. auto. Qed.
Ltac sv := unfold samev; cbn; auto.

Lemma samev_trans s1 s2 s3 : samev s1 s2 -> samev s2 s3 -> samev s1 s3.
Proof. unfold samev. intuition congruence. Qed.

Lemma record_samev s v n s' : badd_record s v n = Ok s' -> samev s s'.
Proof. unfold badd_record. intro H. apply bind_ok in H. destruct H as (u & _ & H). injection H as <-. sv. Qed.

Lemma swap_samev v n s s' : bswap v n s = Ok s' -> samev s s'.
Proof.
  unfold bswap. intro H. apply bind_ok in H. destruct H as (c & _ & H). apply bind_ok in H. destruct H as (x & _ & H).
  destruct x; try (injection H as <-; sv).
  apply bind_ok in H. destruct H as (o & _ & H). destruct o as [l|]; [|injection H as <-; sv].
  destruct (fst (bw0 s n) =? v); [|discriminate]. apply bind_ok in H. destruct H as (s1 & E & H). injection H as <-.
  apply record_samev in E. exact E.
Qed.

Lemma visit_samev v n s s' : bvisit v n s = Ok s' -> samev s s'.
Proof.
  unfold bvisit. intro H. apply bind_ok in H. destruct H as (c & _ & H). apply bind_ok in H. destruct H as (x & _ & H).
  assert (S1 : samev s (if fst (bw1 s n) =? v then bflip n s else s)) by (destruct (_ =? _); sv).
  destruct x; [injection H as <-; sv| |]; (apply bind_ok in H; destruct H as (y & _ & H);
    destruct y; [injection H as <-; sv| |]; (apply bind_ok in H; destruct H as (z & _ & H);
      destruct z; try (injection H as <-; exact S1); apply swap_samev in H; eapply samev_trans; eauto)).
Qed.

Lemma update_samev v ns : forall s s', bupdate v ns s = Ok s' -> samev s s'.
Proof.
  induction ns as [|n ns IH]; intros s s' H; cbn [bupdate] in H; [injection H as <-; sv|].
  destruct (bconf s); [injection H as <-; sv|]. apply bind_ok in H. destruct H as (s1 & E & H).
  apply visit_samev in E. apply IH in H. eapply samev_trans; eauto.
Qed.

Lemma reduce_samev s l s' : breduce s l = Ok s' -> samev s s'.
Proof.
  unfold breduce. intros H. apply bind_ok in H. destruct H as (u & _ & H).
  destruct (Z.ldiff (bcur s (fst l)) (snd l) =? 0); [injection H as <-; sv|].
  apply update_samev in H. exact H.
Qed.

Lemma prop_samev fuel : forall s s', bprop fuel s = Ok s' -> samev s s'.
Proof.
  induction fuel as [|f IH]; intros s s' H; [discriminate|]. cbn [bprop] in H.
  destruct (bconf s). { injection H as <-. sv. }
  destruct (bulist s) as [|n rest]; [injection H as <-; sv|].
  apply bind_ok in H. destruct H as (c & _ & H). apply bind_ok in H. destruct H as (x & _ & H).
  set (s1 := set_bulist (set_buc s (Some n)) rest) in *.
  assert (RED : forall l, (let* s := breduce s1 l in bprop f (set_bunits s (bunits s + 1))) = Ok s' -> samev s s').
  { intros l E. apply bind_ok in E. destruct E as (s2 & E & E'). apply reduce_samev in E.
    apply IH in E'. apply (samev_trans _ s2); [exact E|exact E']. }
  assert (NEXT : bprop f s1 = Ok s' -> samev s s') by (intro E; apply IH in E; exact E).
  destruct x; eauto; (destruct (Nat.ltb 1 (length c)); [|auto];
    apply bind_ok in H; destruct H as (y & _ & H); destruct y; eauto).
Qed.

Lemma choose_samev cf s s' l : bchoose cf s = Ok (s', l) -> samev s s'.
Proof.
  unfold bchoose, bchoose_vsids. intro H. destruct (bvsids cf); apply bind_ok in H; destruct H as (x & _ & H);
    injection H as <- _; sv.
Qed.

Lemma undo_samev s : samev s (bundo s).
Proof.
  unfold bundo. generalize (zrange 1 (bnv s)) as vs. intros vs. revert s. induction vs as [|v vs IH]; intro s; [sv|].
  cbn [fold_left]. eapply samev_trans; [|apply IH]. unfold bundo_var.
  destruct (bpop (blevel s) (bnodes s v) (bcur s v) (baix s)) as ((ns & cur) & aix). sv.
Qed.

(** ** Adding a clause to the scores *)

Section Scores.
Variable p : problem.
Hypothesis WF : wf p.
Hypothesis FITS : fits64 p.

Definition framed (s : bst) : Prop := bnv s = nvars p /\ forall v, 0 <= v <= nvars p -> bdom s v = domsize p v.

Lemma has_var c v d : set_allows c v d = true -> In v (map fst c).
Proof.
  unfold set_allows. intro H. apply existsb_exists in H. destruct H as (l & Hl & H). apply andb_true_iff in H.
  destruct H as (H & _). apply Z.eqb_eq in H. subst v. apply in_map. auto.
Qed.

Lemma bumps_score ls : forall s s', foldM bump_lit ls s = Ok s' -> framed s -> NoDup (map fst ls) ->
  framed s' /\ bcl s' = bcl s /\
  forall v d, 1 <= v <= nvars p -> 0 <= d < domsize p v ->
    bsc s' v d = if set_allows ls v d then plus_one (bsc s v d) else bsc s v d.
Proof.
  induction ls as [|l ls IH]; intros s s' H FR ND; cbn [foldM] in H.
  - injection H as <-. auto.
  - apply bind_ok in H. destruct H as (s1 & E & H). cbn [map] in ND. inversion ND as [|? ? N1 N2]; subst.
    unfold bump_lit in E. apply bind_ok in E. destruct E as (u & BV & E).
    destruct (max_domain <? bdom s (fst l)); [discriminate|]. injection E as <-.
    apply IH in H; auto. destruct H as (H1 & H2 & H3). split; [auto|]. split; [auto|].
    intros v d Hv Hd. rewrite H3 by auto. cbn [bsc set_bsc]. unfold set_allows at 2. cbn [existsb].
    fold (set_allows ls v d). rewrite (Z.eqb_sym (fst l) v).
    destruct (Z.eqb_spec v (fst l)) as [->|N]; cbn [andb orb].
    + assert (NA : set_allows ls (fst l) d = false).
      { destruct (set_allows ls (fst l) d) eqn:E; auto. exfalso. apply N1. eapply has_var; eauto. }
      rewrite NA, orb_false_r. destruct FR as (_ & FR). rewrite FR by lia.
      destruct (Z.leb_spec 0 d); [|lia]. destruct (Z.ltb_spec d (domsize p (fst l))); [|lia]. cbn [andb].
      destruct (Z.testbit (snd l) d); auto.
    + auto.
Qed.

(** ** The clauses of the input *)

Lemma convC_allows c v d : (forall l, In l c -> wf_lit p l) -> 0 <= d < domsize p v ->
  set_allows (convC p c) v d = allows c v d.
Proof.
  intros W Hd. unfold convC. rewrite allows_adds. cbn [set_allows existsb orb].
  unfold set_allows, allows. induction c as [|l c IH]; auto. cbn [map existsb]. rewrite IH by (intros m Hm; apply W; right; auto).
  f_equal. unfold conv. cbn [fst snd]. destruct (Z.eqb_spec (lvar l) v) as [<-|N]; auto. cbn [andb].
  destruct (W l (or_introl eq_refl)) as (H1 & H2). destruct (leq l).
  - rewrite Z.shiftl_1_l, Z.pow2_bits_eqb by lia. auto.
  - rewrite Z.clearbit_eqb. pose proof (proj2 (FF_in p WF FITS (lvar l) d H1) Hd) as HI. unfold inn in HI. rewrite HI. auto.
Qed.

Lemma convC_nodup c : NoDup (map fst (convC p c)).
Proof. apply add_atoms_nodup. constructor. Qed.

Lemma convC_form c : (forall l, In l c -> wf_lit p l) -> set_form p c (convC p c).
Proof.
  intro W. split; [apply convC_nodup|]. split.
  - intro v. rewrite (convC_vars p WF), in_map_iff. split; intros (l & A & B); exists l; auto.
  - intros v m d Hi. rewrite (has_allowed (convC p c) v m d) by (auto using convC_nodup). split.
    + intro H. assert (R : 0 <= d < domsize p v).
      { assert (OK : forall x, In x (convC p c) -> okL (nvars p) (FF p) x).
        { apply (add_atoms_all (fun y => okL (nvars p) (FF p) y)).
          - intros u m1 m2 (Q1 & Q2 & Q3) (Q4 & Q5 & Q6). split; [auto|]. cbn [fst snd] in *. split.
            + destruct (nonzero_inn _ Q2) as (i & Hi'). apply (inn_nonzero i). apply inn_lor. auto.
            + intros i Hi'. apply inn_lor in Hi'. destruct Hi'; auto.
          - intros y [].
          - intros y Hy. apply in_map_iff in Hy. destruct Hy as (l & <- & Hl). apply conv_okL; auto. }
        destruct (OK _ Hi) as (R & _ & G). cbn [fst snd] in *. apply (FF_in p WF FITS); auto. apply G.
        rewrite <- (has_allowed (convC p c) v m d) in H by (auto using convC_nodup). exact H. }
      split; auto. rewrite <- (convC_allows c v d W R). auto.
    + intros (R & H). rewrite convC_allows; auto.
Qed.

(** ** The invariant *)

Definition scored (s : bst) : Prop :=
  framed s /\ exists learned, bcl s = map (convC p) (clauses p) ++ learned /\
    (forall c, In c learned -> NoDup (map fst c)) /\
    forall v d, 1 <= v <= nvars p -> 0 <= d < domsize p v -> bsc s v d = set_score (clauses p) learned v d.

Lemma scored_samev s s' : scored s -> samev s s' -> scored s'.
Proof.
  intros ((F1 & F2) & L & H1 & H2 & H3) (E1 & E2 & E3 & E4). split.
  - split; [congruence|]. intros v Hv. rewrite E3. auto.
  - exists L. split; [congruence|]. split; [auto|]. intros v d Hv Hd. rewrite E4. auto.
Qed.

Lemma scored_nodup s c : scored s -> In c (bcl s) -> NoDup (map fst c).
Proof.
  intros (_ & L & E & H & _) Hc. rewrite E in Hc. apply in_app_or in Hc. destruct Hc as [Hc|Hc]; auto.
  apply in_map_iff in Hc. destruct Hc as (c0 & <- & _). apply convC_nodup.
Qed.

Lemma learn_scored cf s q a b s' : blearn cf s q a b = Ok s' -> scored s -> NoDup (map fst q) -> scored s'.
Proof.
  unfold blearn. cbv zeta. intros H (FR & L & E & HN & HS) ND. apply bind_ok in H. destruct H as (s1 & E1 & H).
  apply bind_ok in H. destruct H as (s2 & E2 & H). apply bind_ok in H. destruct H as (s3 & E3 & H).
  destruct (blen cf); [|discriminate]. injection H as <-.
  apply record_samev in E1.
  assert (S2 : samev s1 s2).
  { destruct (Nat.ltb 1 (length q)); [apply record_samev in E2; auto|]. injection E2 as <-. sv. }
  pose proof (samev_trans _ _ _ E1 S2) as (X1 & X2 & X3 & X4). cbn in X1, X2, X3, X4.
  destruct FR as (F1 & F2).
  apply bumps_score in E3; auto.
  2: { split; [congruence|]. intros v Hv. rewrite X3. auto. }
  destruct E3 as (FR3 & C3 & B3). split; [exact FR3|]. exists (L ++ [q]). split; [|split].
  - cbn. rewrite C3, X2, E, app_assoc. auto.
  - intros c Hc. apply in_app_or in Hc. destruct Hc as [Hc|[<-|[]]]; auto.
  - intros v d Hv Hd. cbn [bsc set_bsc]. rewrite half_eq, B3 by auto. unfold set_score. rewrite fold_left_app. cbn [fold_left].
    rewrite X4, HS by auto. reflexivity.
Qed.

Lemma analyze_scored fuel cf : forall s q a b fresh s' r, banalyze fuel cf s q a b fresh = Ok (s', r) -> scored s ->
  NoDup (map fst q) -> scored s'.
Proof.
  induction fuel as [|f IH]; intros s q a b fresh s' r H K ND; [discriminate|]. cbn [banalyze] in H.
  apply bind_ok in H. destruct H as (x & _ & H). destruct x.
  - destruct fresh; [|discriminate]. apply bind_ok in H. destruct H as (s1 & E & H). injection H as <- <-.
    eapply learn_scored; eauto.
  - apply bind_ok in H. destruct H as (x & _ & H). destruct (nreason x) as [n|]; [|discriminate].
    apply bind_ok in H. destruct H as (c & _ & H). apply bind_ok in H. destruct H as (w & _ & H). eapply IH; eauto.
    apply resolve_nodup.
Qed.

Lemma conflict_scored fuel cf r rc s s' rc' : bconflict fuel cf r rc s = Ok (s', rc') -> scored s -> scored s'.
Proof.
  unfold bconflict. intros H K. apply bind_ok in H. destruct H as (ls & E0 & H).
  apply bind_ok in H. destruct H as ((s1, (q, b)) & E & H). apply analyze_scored in E; auto.
  2: { apply (scored_nodup s); auto. unfold bget in E0. destruct (nth_error (bcl s) (bcc s)) eqn:En; [|discriminate].
       injection E0 as <-. eapply nth_error_In; eauto. }
  apply bind_ok in H. destruct H as (lev & _ & H).
  match type of H with context [bundo ?y] => assert (K2 : scored (bundo y)) end.
  { eapply scored_samev; [|apply undo_samev]. apply (scored_samev s1); [exact E|sv]. }
  destruct (_ =? rc); injection H as <- _; (eapply scored_samev; [exact K2|sv]).
Qed.

Lemma iter_scored fuel cf clk r rc s q : biter fuel cf clk r rc s = Ok q -> scored s ->
  scored (match q with inl (_, s') => s' | inr (_, s') => s' end).
Proof.
  unfold biter. intros H K. set (s0 := set_btick s (S (btick s))) in *.
  assert (K0 : scored s0) by (eapply scored_samev; [eassumption|sv]).
  destruct (clk (btick s)); [injection H as <-; auto|].
  destruct (bconf s0 && (blevel s0 =? 0)); [injection H as <-; auto|].
  apply bind_ok in H. destruct H as ((s1, rc1) & E1 & H).
  assert (K1 : scored s1).
  { destruct (bconf s0); [apply conflict_scored in E1; auto|]. injection E1 as <- _. auto. }
  apply bind_ok in H. destruct H as (s2 & E2 & H).
  assert (K2 : scored s2).
  { destruct (bulist s1); [injection E2 as <-; auto|]. apply prop_samev in E2. eapply scored_samev; eauto. }
  destruct (bconf s2); [injection H as <-; auto|].
  apply bind_ok in H. destruct H as ((s3, l) & E3 & H). apply choose_samev in E3.
  pose proof (scored_samev _ _ K2 E3) as K3. destruct (fst l =? -1); [injection H as <-; auto|].
  apply bind_ok in H. destruct H as (s4 & E4 & H). injection H as <-. apply reduce_samev in E4.
  apply (scored_samev s3); [exact K3|exact E4].
Qed.

(** ** The start *)

Lemma add_clause_score s c s' : badd_clause s c = Ok s' -> built p s -> In c (clauses p) -> framed s ->
  framed s' /\ forall v d, 1 <= v <= nvars p -> 0 <= d < domsize p v ->
    bsc s' v d = if allows c v d then plus_one (bsc s v d) else bsc s v d.
Proof.
  intros H HB Hc FR. destruct WF as (_ & W). destruct (W c Hc) as (_ & WL).
  unfold badd_clause in H. cbv zeta in H. rewrite (read_ok p WF FITS s (bu_base p s HB) c [] WL) in H. cbn [bind] in H.
  fold (convC p c) in H. apply bind_ok in H. destruct H as (s1 & E1 & H).
  apply bumps_score in E1; [|exact FR|apply convC_nodup]. destruct E1 as (F1 & _ & B1). cbn [bsc set_bcl] in B1.
  set (s2 := if Nat.eqb (length (convC p c)) 1 then set_bulist s1 (bulist s1 ++ [length (bcl s)]) else s1) in *.
  assert (S2 : bnv s2 = bnv s1 /\ bdom s2 = bdom s1 /\ bsc s2 = bsc s1) by (unfold s2; destruct (Nat.eqb _ _); auto).
  destruct S2 as (Z1 & Z2 & Z3).
  destruct (convC p c) as [|a q] eqn:Eq; [discriminate|]. rewrite <- Eq in *.
  assert (S3 : bnv s' = bnv s2 /\ bdom s' = bdom s2 /\ bsc s' = bsc s2).
  { apply bind_ok in H. destruct H as (s3 & E3 & H). apply record_samev in E3. destruct E3 as (X1 & X2 & X3 & X4).
    cbn in X1, X2, X3, X4. destruct q as [|b q].
    - injection H as <-. auto.
    - apply record_samev in H. destruct H as (Y1 & Y2 & Y3 & Y4). cbn in Y1, Y2, Y3, Y4. split; [congruence|]. split; congruence. }
  destruct S3 as (Y1 & Y2 & Y3). destruct F1 as (F1 & F2). split.
  - split; [congruence|]. intros v Hv. rewrite Y2, Z2. auto.
  - intros v d Hv Hd. rewrite Y3, Z3, B1 by auto. rewrite convC_allows by auto. auto.
Qed.

Lemma start_scored : exists s, bbuild (items_of p) = Ok s /\ built p s /\ bcl s = map (convC p) (clauses p) /\ scored s.
Proof.
  destruct (build_ok p WF FITS) as (s & E & HB & EC). exists s. split; [auto|]. split; [auto|]. split; [auto|].
  unfold bbuild, items_of in E. rewrite foldM_app in E.
  assert (RG : forall d, In d (doms p) -> 2 <= d <= max_domain).
  { intros d Hd. split; [apply WF; auto|apply FITS; auto]. }
  destruct (doms_ok (doms p) RG) as (dm & cur & E0 & P). rewrite E0 in E. cbn [bind] in E.
  set (s0 := set_bcur (set_bdom (set_bnv binit (Z.of_nat (length (doms p)))) dm) cur) in *.
  assert (B0 : built p s0).
  { constructor; try reflexivity.
    - constructor; try reflexivity.
      + intros v Hv. apply (P v Hv).
      + intros v Hv. apply (P v Hv).
      + intros n c H. destruct n; discriminate.
      + intros n c H. destruct n; discriminate.
      + intros v n Hv. split; [intros []|]. intros (c & H & _). destruct n; discriminate.
      + intros v Hv. constructor.
      + intros n c k H. destruct n; discriminate.
    - intro n. split; [intros []|]. intros (c & H & _). destruct n; discriminate.
    - constructor. }
  assert (F0 : framed s0) by (split; [reflexivity|]; intros v Hv; apply (P v Hv)).
  assert (G : forall cs k s, (forall c, In c cs -> In c (clauses p)) -> built p s -> framed s ->
    (forall v d, 1 <= v <= nvars p -> 0 <= d < domsize p v -> bsc s v d = Nat.iter (k v d) plus_one (S754_zero false)) ->
    forall s', foldM badd_item (map ICls cs) s = Ok s' -> framed s' /\
    forall v d, 1 <= v <= nvars p -> 0 <= d < domsize p v ->
      bsc s' v d = Nat.iter (length (filter (fun c => allows c v d) cs) + k v d) plus_one (S754_zero false)).
  { clear s E HB EC. induction cs as [|c cs IH]; intros k s Hcs HB FR HS s' E; cbn [map foldM badd_item] in E.
    - injection E as <-. auto.
    - destruct (clause_step p WF FITS s c HB (Hcs c (or_introl eq_refl))) as (s1 & E1 & HB1 & C1).
      rewrite E1 in E. cbn [bind] in E. destruct (add_clause_score s c s1 E1 HB (Hcs c (or_introl eq_refl)) FR) as (FR1 & H1).
      destruct (IH (fun v d => if allows c v d then S (k v d) else k v d) s1) with (s' := s') as (Q1 & Q2); auto.
      + intros x Hx. apply Hcs. right. auto.
      + intros v d Hv Hd. rewrite H1, HS by auto. destruct (allows c v d); auto.
      + split; [auto|]. intros v d Hv Hd. rewrite Q2 by auto. cbn [filter]. f_equal. destruct (allows c v d); cbn [length]; lia. }
  destruct (G (clauses p) (fun _ _ => 0%nat) s0 (fun c H => H) B0 F0 (fun v d _ _ => eq_refl) s E) as (FR & HS).
  split; [auto|]. exists []. rewrite app_nil_r. split; [auto|]. split; [intros c []|].
  intros v d Hv Hd. rewrite HS, Nat.add_0_r by auto. reflexivity.
Qed.


Lemma reached_scored cf clk r rc s : bit_reached cf clk r p rc s ->
  scored s /\ exists s0, built p s0 /\ kept (bcl s0) (bcur s0) (nvars p) s.
Proof.
  induction 1 as [s E|fuel rc s rc' s' _ IH E].
  - destruct start_scored as (s1 & E1 & HB & EC & HS). assert (s1 = s) by congruence. subst s1. split; [auto|].
    exists s. split; [auto|]. destruct (bu_base p s HB). constructor; auto.
    + exists []. rewrite app_nil_r. auto.
    + intros u x i Hx. rewrite b_nodes in Hx. destruct Hx.
  - destruct IH as (K1 & s0 & HB & K2). apply iter_scored in E as E1; auto. split; [exact E1|]. exists s0. split; [auto|].
    apply (iter_kept _ _ _ _ _ _ _ _ _ _ E K2).
Qed.

Definition limited (s : bst) : Prop := forall v i, 1 <= v <= nvars p -> inn i (bcur s v) -> 0 <= i < domsize p v.

Lemma kept_limited s0 s : built p s0 -> kept (bcl s0) (bcur s0) (nvars p) s -> limited s /\ bcur s 0 = 0.
Proof.
  intros HB K. destruct K as [K1 K2 K3 K4]. pose proof (b_cur _ _ _ _ s0 [] (bu_base p s0 HB)) as BC. split.
  - intros v i Hv Hi. apply K3 in Hi. rewrite BC in Hi by lia. apply (FF_in p WF FITS); auto.
  - destruct (Z.eq_dec (bcur s 0) 0) as [|N]; auto. exfalso. destruct (nonzero_inn _ N) as (i & Hi). apply K3 in Hi.
    rewrite BC in Hi by (unfold nvars; lia). apply (inn_0 i). exact Hi.
Qed.

Lemma decision_state cf clk r s l : bit_decision_at cf clk r p s l ->
  scored s /\ limited s /\ bcur s 0 = 0 /\ exists s2, bchoose cf s = Ok (s2, l).
Proof.
  intros (fuel & rc0 & s0 & rc & s1 & s2 & HR & CK & (_ & E1) & E2 & _ & EC).
  destruct (reached_scored _ _ _ _ _ HR) as (K & sb & HB & KK). cbv zeta in E1. set (s0' := set_btick s0 (S (btick s0))) in *.
  assert (K0 : scored s0') by (eapply scored_samev; [eassumption|sv]).
  assert (KK0 : kept (bcl sb) (bcur sb) (nvars p) s0') by (eapply kept_same; [eassumption|unfold same; cbn; auto]).
  assert (K1 : scored s1 /\ kept (bcl sb) (bcur sb) (nvars p) s1).
  { destruct (bconf s0').
    - split; [eapply conflict_scored; eauto|]. eapply (conflict_kept _ _ _ _ _ _ _ _ _ _ E1); auto.
    - injection E1 as <- <-. auto. }
  destruct K1 as (K1 & KK1).
  assert (K2 : scored s /\ kept (bcl sb) (bcur sb) (nvars p) s).
  { destruct (bulist s1); [injection E2 as <-; auto|]. split; [|eapply prop_kept; eauto].
    apply prop_samev in E2. eapply scored_samev; eauto. }
  destruct K2 as (K2 & KK2). split; [auto|]. destruct (kept_limited sb s HB KK2). eauto.
Qed.

(** ** The choice by score *)

Lemma score_nn learned v d : nonneg (set_score (clauses p) learned v d).
Proof.
  unfold set_score.
  assert (G : forall x, nonneg x -> nonneg (fold_left (fun x c => half (if set_allows c v d then plus_one x else x)) learned x)).
  { induction learned as [|c L IH]; intros x Hx; auto. cbn [fold_left]. apply IH. rewrite <- half_eq. apply half_nn.
    destruct (set_allows c v d); auto. rewrite <- plus_one_eq. apply add_one_nn. auto. }
  apply G. induction (length _) as [|n IH]; [cbn; auto|]. change (Nat.iter (S n) plus_one ?x) with (plus_one (Nat.iter n plus_one x)).
  rewrite <- plus_one_eq. apply add_one_nn. auto.
Qed.

Lemma scored_nn s v d : scored s -> 1 <= v <= nvars p -> 0 <= d < domsize p v -> nonneg (bsc s v d).
Proof. intros (_ & L & _ & _ & H) Hv Hd. rewrite H by auto. apply score_nn. Qed.

Local Opaque bcount.

(** The best of the values tried so far. *)
Definition top (s : bst) (tried : list (Z * Z)) (b : spec_float * Z * Z) : Prop :=
  (b = (f64_mone, -1, -1) /\ tried = []) \/
  exists t1 t2, tried = t1 ++ (snd (fst b), snd b) :: t2 /\ fst (fst b) = bsc s (snd (fst b)) (snd b) /\
    (forall x, In x tried -> SFltb (fst (fst b)) (bsc s (fst x) (snd x)) = false) /\
    forall x, In x t1 -> SFltb (bsc s (fst x) (snd x)) (fst (fst b)) = true.

Definition candidates (s : bst) (v : Z) (js : list Z) : list (Z * Z) :=
  if Nat.ltb 1 (bcount (bcur s v)) then map (fun j => (v, j)) (filter (Z.testbit (bcur s v)) js) else [].

Definition nnl (s : bst) (xs : list (Z * Z)) : Prop := forall x, In x xs -> nonneg (bsc s (fst x) (snd x)).

Lemma top_add s tried b v j : top s tried b -> nnl s (tried ++ [(v, j)]) ->
  top s (tried ++ [(v, j)]) (if SFltb (fst (fst b)) (bsc s v j) then (bsc s v j, v, j) else b).
Proof.
  intros HT NN. assert (Nj : nonneg (bsc s v j)) by (apply (NN (v, j)); apply in_or_app; right; left; auto).
  destruct HT as [(-> & ->)|(t1 & t2 & E1 & E2 & E3 & E4)].
  - cbn [fst]. rewrite ltb_mone by auto. right. exists [], []. cbn. split; [auto|]. split; [auto|].
    split; [|intros x []]. intros x [<-|[]]. cbn. apply ltb_irrefl.
  - assert (Nb : nonneg (fst (fst b))).
    { rewrite E2. apply (NN (snd (fst b), snd b)). rewrite E1. apply in_or_app. left. apply in_or_app. right. left. auto. }
    destruct (SFltb (fst (fst b)) (bsc s v j)) eqn:EL.
    + right. exists tried, []. cbn [fst snd]. split; [auto|]. split; [auto|]. split.
      * intros x Hx. assert (Nx := NN x Hx). apply in_app_or in Hx. destruct Hx as [Hx|[<-|[]]]; [|apply ltb_irrefl].
        apply (ltb_trans_neg (fst (fst b))); auto.
      * intros x Hx. assert (Nx : nonneg (bsc s (fst x) (snd x))) by (apply NN; apply in_or_app; auto).
        destruct (SFltb (bsc s (fst x) (snd x)) (bsc s v j)) eqn:E; auto.
        exfalso. pose proof (ltb_false_trans _ _ _ Nb Nx Nj (E3 x Hx) E). congruence.
    + right. exists t1, (t2 ++ [(v, j)]). split; [rewrite E1, <- app_assoc; auto|]. split; [auto|]. split; [|auto].
      intros x Hx. apply in_app_or in Hx. destruct Hx as [Hx|[<-|[]]]; auto.
Qed.

Lemma score_fold_top s v js : forall tried b b', Nat.ltb 1 (bcount (bcur s v)) = true -> top s tried b ->
  nnl s (tried ++ candidates s v js) -> foldM (bscore_step s v) js b = Ok b' -> top s (tried ++ candidates s v js) b'.
Proof.
  unfold candidates. intros tried b b' C. rewrite C. revert tried b b'.
  induction js as [|j js IH]; intros tried b b' HT NN E; cbn [foldM filter map] in *.
  - injection E as <-. rewrite app_nil_r. auto.
  - apply bind_ok in E. destruct E as (b1 & E1 & E). unfold bscore_step in E1. destruct (max_domain <=? j); [discriminate|].
    destruct (Z.testbit (bcur s v) j) eqn:ET; cbn [andb map] in *.
    + assert (b1 = if SFltb (fst (fst b)) (bsc s v j) then (bsc s v j, v, j) else b) as ->.
      { destruct (SFltb (fst (fst b)) (bsc s v j)); congruence. }
      change (tried ++ (v, j) :: map (fun j => (v, j)) (filter (Z.testbit (bcur s v)) js)) with
        (tried ++ [(v, j)] ++ map (fun j => (v, j)) (filter (Z.testbit (bcur s v)) js)) in *.
      rewrite app_assoc in *. eapply IH; eauto. apply top_add; auto. intros x Hx. apply NN. apply in_or_app. auto.
    + injection E1 as <-. eapply IH; eauto.
Qed.

Lemma score_var_top s v tried b b' : top s tried b -> nnl s (tried ++ candidates s v (zrange 0 (bdom s v))) ->
  bscore_var s b v = Ok b' -> top s (tried ++ candidates s v (zrange 0 (bdom s v))) b'.
Proof.
  intros HT NN E. unfold bscore_var in E. destruct (Nat.ltb 1 (bcount (bcur s v))) eqn:C.
  - eapply score_fold_top; eauto.
  - assert (EC : candidates s v (zrange 0 (bdom s v)) = []) by (unfold candidates; rewrite C; reflexivity).
    rewrite EC, app_nil_r. injection E as <-. exact HT.
Qed.

Lemma var_fold_top s vs : forall tried b b', top s tried b ->
  nnl s (tried ++ flat_map (fun v => candidates s v (zrange 0 (bdom s v))) vs) -> foldM (bscore_var s) vs b = Ok b' ->
  top s (tried ++ flat_map (fun v => candidates s v (zrange 0 (bdom s v))) vs) b'.
Proof.
  induction vs as [|v vs IH]; intros tried b b' HT NN E; cbn [foldM flat_map] in *.
  - injection E as <-. rewrite app_nil_r. auto.
  - apply bind_ok in E. destruct E as (b1 & E1 & E). rewrite app_assoc in *. apply (IH _ b1); auto.
    apply (score_var_top s v tried b); auto. intros x Hx. apply NN. apply in_or_app. auto.
Qed.

(** The order in which the values are tried. *)
Definition before (x y : Z * Z) : Prop := fst x < fst y \/ fst x = fst y /\ snd x < snd y.

Inductive ordered : list (Z * Z) -> Prop :=
| ord_nil : ordered []
| ord_cons x xs : (forall y, In y xs -> before x y) -> ordered xs -> ordered (x :: xs).

Lemma ordered_app xs ys : ordered xs -> ordered ys -> (forall x y, In x xs -> In y ys -> before x y) -> ordered (xs ++ ys).
Proof.
  induction 1 as [|x xs H _ IH]; intros HY HB; auto. cbn. constructor.
  - intros y Hy. apply in_app_or in Hy. destruct Hy as [Hy|Hy]; auto. apply HB; auto. left. auto.
  - apply IH; auto. intros a b Ha Hb. apply HB; auto. right. auto.
Qed.

Lemma zrange_snoc lo n : zrange lo (Z.of_nat (S n)) = zrange lo (Z.of_nat n) ++ [lo + Z.of_nat n].
Proof.
  unfold zrange. rewrite !Nat2Z.id. rewrite seq_S, map_app. reflexivity.
Qed.

Lemma ordered_cands s v m : ordered (candidates s v (zrange 0 m)).
Proof.
  unfold candidates. destruct (Nat.ltb 1 (bcount (bcur s v))); [|constructor].
  destruct (Z_le_gt_dec 0 m) as [L|L].
  2: { unfold zrange. replace (Z.to_nat m) with 0%nat by lia. cbn. constructor. }
  rewrite <- (Z2Nat.id m L). induction (Z.to_nat m) as [|n IH]; [cbn; constructor|].
  rewrite zrange_snoc, filter_app, map_app. apply ordered_app; auto.
  - cbn [filter]. destruct (Z.testbit (bcur s v) (0 + Z.of_nat n)); cbn; [|constructor]. constructor; [intros y []|constructor].
  - intros x y Hx Hy. apply in_map_iff in Hx, Hy. destruct Hx as (i & <- & Hi), Hy as (j & <- & Hj).
    apply filter_In in Hi, Hj. destruct Hi as (Hi & _), Hj as (Hj & _). apply in_zrange in Hi. destruct Hj as [<-|[]].
    right. cbn. lia.
Qed.

Lemma cands_var s v js x : In x (candidates s v js) -> fst x = v.
Proof.
  unfold candidates. destruct (Nat.ltb 1 _); [|intros []]. intro H. apply in_map_iff in H. destruct H as (j & <- & _). auto.
Qed.

Lemma ordered_all s n : ordered (flat_map (fun v => candidates s v (zrange 0 (bdom s v))) (zrange 0 (Z.of_nat n))).
Proof.
  induction n as [|n IH]; [cbn; constructor|]. rewrite zrange_snoc, flat_map_app. apply ordered_app; auto.
  - cbn [flat_map]. rewrite app_nil_r. apply ordered_cands.
  - intros x y Hx Hy. apply in_flat_map in Hx. destruct Hx as (v & Hv & Hx). apply cands_var in Hx. apply in_zrange in Hv.
    cbn [flat_map] in Hy. rewrite app_nil_r in Hy. apply cands_var in Hy. left. lia.
Qed.

Lemma before_irrefl x : ~ before x x.
Proof. unfold before. lia. Qed.

Lemma ordered_split t1 x t2 y : ordered (t1 ++ x :: t2) -> In y (t1 ++ x :: t2) -> before y x -> In y t1.
Proof.
  induction t1 as [|a t1 IH]; intros HO Hi HB; cbn in *; inversion HO as [|? ? H1 H2]; subst.
  - destruct Hi as [<-|Hi]; [exfalso; apply (before_irrefl x); auto|]. exfalso. specialize (H1 y Hi). unfold before in *. lia.
  - destruct Hi as [<-|Hi]; [left; auto|]. right. apply IH; auto.
Qed.

Lemma in_cands s v d : scored s -> limited s -> bcur s 0 = 0 ->
  In (v, d) (flat_map (fun v => candidates s v (zrange 0 (bdom s v))) (zrange 0 (bnv s + 1))) <-> open_value p s v d.
Proof.
  intros ((F1 & F2) & _) HL H0. rewrite in_flat_map, F1. split.
  - intros (u & Hu & Hi). pose proof (cands_var _ _ _ _ Hi) as E. cbn in E. subst u. apply in_zrange in Hu.
    unfold candidates in Hi. destruct (Nat.ltb_spec 1 (bcount (bcur s v))) as [L|L]; [|destruct Hi].
    apply in_map_iff in Hi. destruct Hi as (j & E & Hj). injection E as ->. apply filter_In in Hj. destruct Hj as (_ & Hj).
    assert (Nv : v <> 0) by (intros ->; rewrite H0 in Hj; rewrite Z.bits_0 in Hj; discriminate).
    destruct (count_two _ d L) as (e & He & Ne). split; [lia|]. split; [auto|]. exists e. auto.
  - intros (Hv & Hd & e & Ne & He). exists v. split; [apply in_zrange; lia|]. unfold candidates.
    pose proof (HL v d Hv Hd) as Rd. pose proof (HL v e Hv He) as Re. pose proof (DM_64' p WF FITS v Hv) as D64.
    destruct (Nat.ltb_spec 1 (bcount (bcur s v))) as [L|L].
    + apply (in_map (fun j => (v, j))). apply filter_In. split; [|exact Hd]. apply in_zrange. rewrite F2 by lia. lia.
    + exfalso. apply Ne. apply (count_one (bcur s v)); auto; lia.
Qed.

Lemma vsids_choice s s2 l : scored s -> limited s -> bcur s 0 = 0 -> bchoose_vsids s = Ok (s2, l) -> score_choice p s l.
Proof.
  intros HS HL H0 E. unfold bchoose_vsids in E. apply bind_ok in E. destruct E as (b & EB & E). injection E as _ <-.
  set (all := flat_map (fun v => candidates s v (zrange 0 (bdom s v))) (zrange 0 (bnv s + 1))).
  assert (IN : forall v d, In (v, d) all <-> open_value p s v d) by (intros; apply in_cands; auto).
  assert (NN : nnl s all).
  { intros (v, d) Hx. apply IN in Hx. destruct Hx as (Hv & Hd & _). cbn. apply scored_nn; auto. }
  assert (OR : ordered all).
  { unfold all. assert (N0 : 0 <= nvars p) by (unfold nvars; lia). destruct HS as ((F1 & _) & _).
    rewrite <- (Z2Nat.id (bnv s + 1)) by lia. apply ordered_all. }
  assert (T : top s all b).
  { apply (var_fold_top s (zrange 0 (bnv s + 1)) [] (f64_mone, -1, -1)); auto. left. auto. }
  unfold score_choice. cbn [fst snd]. destruct T as [(-> & EA)|(t1 & t2 & E1 & E2 & E3 & E4)].
  - left. split; [auto|]. intros v d H. apply IN in H. rewrite EA in H. destruct H.
  - right. destruct b as ((m, v), d). cbn [fst snd] in *. subst m.
    assert (OV : open_value p s v d) by (apply IN; rewrite E1; apply in_or_app; right; left; auto).
    exists d. split; [auto|]. pose proof OV as (Hv & Hd & _). pose proof (HL v d Hv Hd) as Rd. split.
    + intro e. destruct (Z.eqb_spec d (-1)); [lia|]. apply inn_shiftl. lia.
    + intros u e HO. split.
      * apply (E3 (u, e)). apply IN. auto.
      * intro HB. apply (E4 (u, e)). apply (ordered_split t1 (v, d) t2).
        -- rewrite <- E1. auto.
        -- rewrite <- E1. apply IN. auto.
        -- unfold before. cbn. lia.
Qed.

Lemma scored_scores s : scored s -> set_scores p s.
Proof.
  intros (_ & L & E & _ & HS). exists (map (convC p) (clauses p)), L. split; [auto|]. split; [|auto].
  assert (G : forall cs, (forall c, In c cs -> In c (clauses p)) -> Forall2 (set_form p) cs (map (convC p) cs)).
  { induction cs as [|c cs IH]; intro H1; [constructor|]. cbn [map]. constructor.
    - apply convC_form. destruct WF as (_ & W). apply (W c). apply H1. left. auto.
    - apply IH. intros d Hd. apply H1. right. auto. }
  apply G. auto.
Qed.

Theorem bit_scores cf clk r rc s : bit_reached cf clk r p rc s -> set_scores p s.
Proof. intro H. apply scored_scores. apply (reached_scored _ _ _ _ _ H). Qed.

Theorem bit_score_choice cf clk r s l : bvsids cf = true -> bit_decision_at cf clk r p s l ->
  set_scores p s /\ score_choice p s l.
Proof.
  intros V H. destruct (decision_state _ _ _ _ _ H) as (HS & HL & H0 & s2 & E). unfold bchoose in E. rewrite V in E.
  split; [apply scored_scores; auto|eapply vsids_choice; eauto].
Qed.

End Scores.
