(** * The second solver and domains with more than 64 values *)

From Verif Require Import Spec Outcome State ModelHeur ModelSearch ModelBuild ModelBit Base BitResolve BitSpec BitBuild.

(** The variable is declared with more than 64 values. *)
Definition wide_var (p : problem) (v : Z) : Prop := max_domain < domsize p v.
Definition wide_clause (p : problem) (c : clause) : Prop := exists l, In l c /\ wide_var p (lvar l).

Section Wide.
Variable p : problem.
Hypothesis WF : wf p.

Definition declared (s : bst) : Prop :=
  bnv s = nvars p /\ forall v, 0 <= v <= nvars p -> bdom s v = domsize p v.

Lemma doms_declared ds : (forall d, In d ds -> 2 <= d) ->
  exists dm cur, foldM badd_item (map IDom ds) binit = Ok (set_bcur (set_bdom (set_bnv binit (Z.of_nat (length ds))) dm) cur) /\
    forall v, 0 <= v <= Z.of_nat (length ds) -> dm v = domsize (mkProblem ds []) v.
Proof.
  induction ds as [|d ds IH] using rev_ind; intro H.
  - exists (fun _ => 0), (fun _ => 0). split; [reflexivity|]. cbn [length]. intros v Hv. assert (v = 0) as -> by lia. reflexivity.
  - destruct IH as (dm & cur & E & P); [intros x Hx; apply H; apply in_or_app; auto|].
    rewrite map_app, foldM_app, E. cbn [bind map foldM badd_item]. unfold badd_domain.
    pose proof (H d ltac:(apply in_or_app; right; left; auto)) as Hd.
    destruct (Z.ltb_spec d 0); [lia|]. cbn [bind]. eexists _, _. split.
    + rewrite app_length. cbn [length]. rewrite Nat2Z.inj_add. reflexivity.
    + cbn. intros v Hv. rewrite app_length in Hv. cbn [length] in Hv. rewrite domsize_snoc by lia.
      destruct (Z.eqb_spec v (Z.of_nat (length ds) + 1)) as [->|N].
      * reflexivity.
      * apply P. lia.
Qed.

Lemma bvar_declared s v : declared s -> 0 <= v <= nvars p -> bvar s v = Ok tt.
Proof. intros (E & _) H. unfold bvar. rewrite E. destruct (Z.leb_spec 0 v), (Z.leb_spec v (nvars p)); auto; lia. Qed.

Lemma read_wide s : declared s -> forall c acc, (forall l, In l c -> wf_lit p l) ->
  (exists q, foldM (read_atom s) c acc = Ok q /\ forall v, In v (map fst q) <-> In v (map fst acc) \/ In v (map lvar c)) \/
  foldM (read_atom s) c acc = Undef BadBit /\ wide_clause p c.
Proof.
  intro D. induction c as [|l c IH]; intros acc W; cbn [foldM map].
  - left. exists acc. split; auto. cbn. tauto.
  - destruct (W l (or_introl eq_refl)) as (H1 & H2).
    assert (E : (exists m, bit_lit s l = Ok (lvar l, m)) \/ bit_lit s l = Undef BadBit /\ wide_var p (lvar l)).
    { unfold bit_lit, wide_var. rewrite (bvar_declared s (lvar l) D) by lia. cbn [bind].
      destruct (bit_ok (lval l)) eqn:BO; [left; destruct (leq l); eauto|]. right. split; [destruct (leq l); auto|].
      unfold bit_ok in BO. destruct (Z.leb_spec 0 (lval l)), (Z.ltb_spec (lval l) max_domain); try discriminate; lia. }
    unfold read_atom at 1 3. destruct E as [(m & E)|(E & Wd)]; rewrite E; cbn [bind].
    + destruct (IH (add_atom acc (lvar l, m))) as [(q & Eq & V)|(Eq & x & Hx & Wx)]; [intros k Hk; apply W; right; auto| |].
      * left. exists q. split; auto. intro v. rewrite V, add_atom_vars. cbn [fst In]. intuition congruence.
      * right. split; auto. exists x. split; auto. right. auto.
    + right. split; auto. exists l. split; auto. left. auto.
Qed.

Lemma bump_wide q : forall s, declared s -> (forall v, In v (map fst q) -> 1 <= v <= nvars p) ->
  (exists sc, foldM bump_lit q s = Ok (set_bsc s sc) /\ forall v, In v (map fst q) -> ~ wide_var p v) \/
  foldM bump_lit q s = Undef BadBit /\ exists v, In v (map fst q) /\ wide_var p v.
Proof.
  unfold wide_var. induction q as [|l q IH]; intros s D R; cbn [foldM map].
  - left. exists (bsc s). split; [destruct s; reflexivity|]. intros v [].
  - pose proof (R (fst l) (or_introl eq_refl)) as Hl. unfold bump_lit at 1 3. rewrite (bvar_declared s (fst l) D) by lia. cbn [bind].
    rewrite (proj2 D) by lia. destruct (Z.ltb_spec max_domain (domsize p (fst l))) as [L|L].
    + right. split; auto. exists (fst l). split; auto. left. auto.
    + cbn [bind]. match goal with |- context [foldM bump_lit q ?s1] => destruct (IH s1) as [(sc & E & H)|(E & v & Hv & Wv)] end.
      * exact D.
      * intros v Hv. apply R. right. auto.
      * left. exists sc. split; [rewrite E; reflexivity|]. intros v [<-|Hv]; auto; lia.
      * right. split; auto. exists v. split; auto. right. auto.
Qed.

Lemma clause_wide s c : declared s -> In c (clauses p) ->
  (exists s', badd_clause s c = Ok s' /\ declared s' /\ ~ wide_clause p c) \/
  badd_clause s c = Undef BadBit /\ wide_clause p c.
Proof.
  intros D Hc. destruct WF as (_ & W). destruct (W c Hc) as (NE & WL). unfold badd_clause. cbv zeta.
  destruct (read_wide s D c [] WL) as [(q & E & V)|(E & Wd)]; rewrite E; cbn [bind]; [|auto].
  assert (V' : forall v, In v (map fst q) <-> In v (map lvar c)) by (intro v; rewrite V; cbn; tauto).
  assert (R : forall v, In v (map fst q) -> 1 <= v <= nvars p).
  { intros v Hv. apply V' in Hv. apply in_map_iff in Hv. destruct Hv as (l & <- & Hl). apply (WL l Hl). }
  destruct (bump_wide q (set_bcl s (bcl s ++ [q])) D R) as [(sc & EB & NW)|(EB & v & Hv & Wv)]; rewrite EB; cbn [bind].
  2: { right. split; auto. apply V' in Hv. apply in_map_iff in Hv. destruct Hv as (l & <- & Hl). exists l. auto. }
  left. assert (NC : ~ wide_clause p c).
  { intros (l & Hl & Wl). apply (NW (lvar l)); auto. apply V', in_map. auto. }
  destruct q as [|a q']; [destruct c as [|l c']; [congruence|]; destruct (proj2 (V' (lvar l)) (or_introl eq_refl))|].
  set (n := length (bcl s)).
  set (s2 := if Nat.eqb _ 1 then _ else _).
  assert (D2 : declared s2) by (unfold s2; destruct (Nat.eqb _ 1); exact D).
  assert (REC : forall s0 v, declared s0 -> 1 <= v <= nvars p -> exists s1, badd_record s0 v n = Ok s1 /\ declared s1).
  { intros s0 v D0 Hv. unfold badd_record. rewrite (bvar_declared s0 v D0) by lia. cbn [bind]. eexists. split; [reflexivity|]. exact D0. }
  destruct (REC (set_bw0 s2 (updn (bw0 s2) n a)) (fst a) D2 ltac:(apply R; left; auto)) as (s3 & E3 & D3).
  rewrite E3. cbn [bind]. destruct q' as [|b q'']; [eauto|].
  destruct (REC (set_bw1 s3 (updn (bw1 s3) n b)) (fst b) D3 ltac:(apply R; right; left; auto)) as (s4 & E4 & D4). eauto.
Qed.

Lemma clauses_wide cs : (forall c, In c cs -> In c (clauses p)) -> forall s, declared s ->
  (exists s', foldM badd_item (map ICls cs) s = Ok s' /\ forall c, In c cs -> ~ wide_clause p c) \/
  foldM badd_item (map ICls cs) s = Undef BadBit /\ exists c, In c cs /\ wide_clause p c.
Proof.
  induction cs as [|c cs IH]; intros H s D; cbn [map foldM badd_item].
  - left. exists s. split; [auto|]. intros c [].
  - destruct (clause_wide s c D) as [(s1 & E & D1 & NW)|(E & Wd)]; [apply H; left; auto| |]; rewrite E; cbn [bind].
    + destruct (IH (fun d Hd => H d (or_intror Hd)) s1 D1) as [(s2 & E2 & N2)|(E2 & d & Hd & Wd)].
      * left. exists s2. split; auto. intros d [<-|Hd]; auto.
      * right. split; auto. exists d. split; auto. right. auto.
    + right. split; auto. exists c. split; auto. left. auto.
Qed.

Theorem build_wide :
  (exists s, bbuild (items_of p) = Ok s /\ forall c, In c (clauses p) -> ~ wide_clause p c) \/
  bbuild (items_of p) = Undef BadBit /\ exists c, In c (clauses p) /\ wide_clause p c.
Proof.
  unfold bbuild, items_of. rewrite foldM_app. destruct (doms_declared (doms p)) as (dm & cur & E & H); [apply WF|].
  rewrite E. cbn [bind]. apply clauses_wide; [auto|]. split; [reflexivity|]. exact H.
Qed.

Theorem solve_wide fuel cf clk r : (exists c l, In c (clauses p) /\ In l c /\ wide_var p (lvar l)) ->
  bsolve fuel cf clk r p = Undef BadBit.
Proof.
  intros (c & l & Hc & Hl & Wl). unfold bsolve. destruct build_wide as [(s & _ & N)|(E & _)]; [|rewrite E; auto].
  exfalso. apply (N c Hc). exists l. auto.
Qed.

Theorem build_narrow : (forall c l, In c (clauses p) -> In l c -> ~ wide_var p (lvar l)) ->
  exists s, bbuild (items_of p) = Ok s.
Proof.
  intro H. destruct build_wide as [(s & E & _)|(_ & c & Hc & l & Hl & Wl)]; [eauto|]. exfalso. apply (H c l Hc Hl Wl).
Qed.

End Wide.
