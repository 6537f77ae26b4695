(** * The second solver: the range of its counters *)

From Coq Require Import Floats.SpecFloat.
From Verif Require Import Spec Outcome State TextSpec ModelHeur ModelSearch ModelBuild ModelBit Base BitEnds BitTick BitStepSpec RangeSpec.
#[local] Open Scope Z_scope.

(** ** Counting values *)

Definition cnt (m : Z) : Z := Z.of_nat (bcount m).
Definition narrow (m : Z) : Prop := forall i, Z.testbit m i = true -> 0 <= i < max_domain.

Lemma cnt_nonneg m : 0 <= cnt m.
Proof. unfold cnt. lia. Qed.

Lemma filter_split (f g : Z -> bool) : forall l,
  (length (filter (fun i => f i && g i) l) + length (filter (fun i => f i && negb (g i)) l) = length (filter f l))%nat.
Proof. induction l as [|x l IH]; auto. simpl. destruct (f x), (g x); simpl; lia. Qed.

Lemma filter_orb (f g : Z -> bool) : forall l,
  (length (filter (fun i => f i || g i) l) <= length (filter f l) + length (filter g l))%nat.
Proof. induction l as [|x l IH]; auto. simpl. destruct (f x), (g x); simpl; lia. Qed.

Lemma cnt_split m l : cnt (Z.land m l) + cnt (Z.ldiff m l) = cnt m.
Proof.
  unfold cnt, bcount. rewrite <- (filter_split (Z.testbit m) (Z.testbit l) (zrange 0 max_domain)), Nat2Z.inj_add. f_equal; f_equal; f_equal; apply filter_ext; intro i.
  - apply Z.land_spec.
  - apply Z.ldiff_spec.
Qed.

Lemma cnt_lor a b : cnt (Z.lor a b) <= cnt a + cnt b.
Proof.
  unfold cnt, bcount. rewrite <- Nat2Z.inj_add. apply inj_le. etransitivity; [|apply filter_orb].
  apply Nat.eq_le_incl. f_equal. apply filter_ext. intro i. apply Z.lor_spec.
Qed.

Lemma cnt_pos m i : Z.testbit m i = true -> 0 <= i < max_domain -> 1 <= cnt m.
Proof.
  intros B R. unfold cnt, bcount. assert (H : In i (filter (Z.testbit m) (zrange 0 max_domain))) by (apply filter_In; split; [apply in_zrange; lia|auto]).
  destruct (filter (Z.testbit m) (zrange 0 max_domain)); [destruct H|]. simpl length. lia.
Qed.

Lemma narrow_bit m : narrow m -> m <> 0 -> exists i, Z.testbit m i = true /\ 0 <= i < max_domain.
Proof.
  intros N NZ. destruct (existsb (Z.testbit m) (zrange 0 max_domain)) eqn:E.
  - apply existsb_exists in E. destruct E as (i & Hi & B). exists i. split; auto.
  - exfalso. apply NZ. apply Z.bits_inj'. intros i Hi. rewrite Z.bits_0. destruct (Z.testbit m i) eqn:B; auto.
    assert (X : existsb (Z.testbit m) (zrange 0 max_domain) = true); [|congruence]. apply existsb_exists. exists i. split; auto.
    apply in_zrange. apply N in B. lia.
Qed.

Lemma narrow_pos m : narrow m -> m <> 0 -> 1 <= cnt m.
Proof. intros N NZ. destruct (narrow_bit m N NZ) as (i & B & R). eapply cnt_pos; eauto. Qed.

Lemma narrow_land m l : narrow m -> narrow (Z.land m l).
Proof. intros N i H. rewrite Z.land_spec in H. apply andb_prop in H. apply N. tauto. Qed.
Lemma narrow_ldiff m l : narrow m -> narrow (Z.ldiff m l).
Proof. intros N i H. rewrite Z.ldiff_spec in H. apply andb_prop in H. apply N. tauto. Qed.
Lemma narrow_lor a b : narrow a -> narrow b -> narrow (Z.lor a b).
Proof. intros A B i H. rewrite Z.lor_spec in H. apply orb_prop in H. destruct H; auto. Qed.

(** ** Sums *)

Definition zs (f : Z -> Z) (l : list Z) : Z := fold_right (fun y a => f y + a) 0 l.
Definition nsum (ns : list node) : Z := fold_right (fun x a => cnt (nvals x) + a) 0 ns.

Lemma zs_ext f g l : (forall y, In y l -> f y = g y) -> zs f l = zs g l.
Proof. induction l as [|x l IH]; intro H; auto. cbn. fold (zs f l) (zs g l). rewrite (H x (or_introl eq_refl)), IH; auto. intros; apply H; right; auto. Qed.

Lemma zs_le f g l : (forall y, In y l -> f y <= g y) -> zs f l <= zs g l.
Proof. induction l as [|x l IH]; intro H; cbn; [lia|]. pose proof (H x (or_introl eq_refl)). assert (zs f l <= zs g l) by (apply IH; intros; apply H; right; auto). unfold zs in *. lia. Qed.

Lemma zs_nonneg f l : (forall y, In y l -> 0 <= f y) -> 0 <= zs f l.
Proof. induction l as [|x l IH]; intro H; cbn; [lia|]. fold (zs f l). pose proof (H x (or_introl eq_refl)). assert (0 <= zs f l) by (apply IH; intros; apply H; right; auto). lia. Qed.

Lemma zs_add f g l : zs (fun y => f y + g y) l = zs f l + zs g l.
Proof. induction l as [|x l IH]; auto. cbn. fold (zs f l) (zs g l) (zs (fun y => f y + g y) l). lia. Qed.

Lemma zs_upd f g v : forall l, NoDup l -> In v l -> (forall y, y <> v -> g y = f y) -> zs g l = zs f l - f v + g v.
Proof.
  induction l as [|x l IH]; intros ND I H; [destruct I|]. inversion ND as [|a b N1 N2]; subst. cbn. fold (zs g l) (zs f l).
  destruct (Z.eq_dec x v) as [->|N].
  - assert (E : zs g l = zs f l) by (apply zs_ext; intros y Hy; apply H; intros ->; contradiction). lia.
  - destruct I as [->|I]; [congruence|]. rewrite (H x N), (IH N2 I H). lia.
Qed.

Lemma nsum_nonneg ns : 0 <= nsum ns.
Proof. induction ns as [|x ns IH]; cbn; [lia|]. fold (nsum ns). pose proof (cnt_nonneg (nvals x)). lia. Qed.

Lemma nsum_length ns : (forall x, In x ns -> 1 <= cnt (nvals x)) -> Z.of_nat (length ns) <= nsum ns.
Proof. induction ns as [|x ns IH]; intro H; cbn [nsum fold_right length]; [lia|]. fold (nsum ns). pose proof (H x (or_introl eq_refl)). assert (Z.of_nat (length ns) <= nsum ns) by (apply IH; intros; apply H; right; auto). lia. Qed.

(** ** What does not change domains and counters *)

Definition eqd (s s' : bst) : Prop :=
  bnv s' = bnv s /\ bcur s' = bcur s /\ bnodes s' = bnodes s /\ baix s' = baix s /\ bunits s' = bunits s /\ blevel s' = blevel s.
Ltac et := unfold eqd; cbn; auto 10.

Lemma eqd_trans s1 s2 s3 : eqd s1 s2 -> eqd s2 s3 -> eqd s1 s3.
Proof. unfold eqd. intuition congruence. Qed.

Lemma record_eqd s v n s' : badd_record s v n = Ok s' -> eqd s s'.
Proof. unfold badd_record. intro H. apply bind_ok in H. destruct H as (u & _ & H). injection H as <-. et. Qed.

Lemma bumps_eqd ls s s' : foldM bump_lit ls s = Ok s' -> eqd s s'.
Proof.
  intro H. apply (foldM_inv_ok bump_lit (eqd s) ls s); auto; [et|].
  intros l b1 b2 _ H1 H2. apply (eqd_trans _ b1); auto. unfold bump_lit in H2. apply bind_ok in H2. destruct H2 as (u & _ & H2).
  destruct (max_domain <? bdom b1 (fst l)); [discriminate|]. injection H2 as <-. et.
Qed.

Lemma swap_eqd v n s s' : bswap v n s = Ok s' -> eqd s s'.
Proof.
  unfold bswap. intro H. apply bind_ok in H. destruct H as (c & _ & H). apply bind_ok in H. destruct H as (x & _ & H).
  destruct x; try (injection H as <-; et).
  apply bind_ok in H. destruct H as (o & _ & H). destruct o as [l|]; [|injection H as <-; et].
  destruct (fst (bw0 s n) =? v); [|discriminate]. apply bind_ok in H. destruct H as (s1 & E & H). injection H as <-.
  apply record_eqd in E. exact E.
Qed.

Lemma visit_eqd v n s s' : bvisit v n s = Ok s' -> eqd s s'.
Proof.
  unfold bvisit. intro H. apply bind_ok in H. destruct H as (c & _ & H). apply bind_ok in H. destruct H as (x & _ & H).
  destruct x; try (injection H as <-; et);
    (apply bind_ok in H; destruct H as (y & _ & H); destruct y; try (injection H as <-; et);
     (cbv zeta in H; apply bind_ok in H; destruct H as (z & _ & H);
      assert (S1 : eqd s (if fst (bw1 s n) =? v then bflip n s else s)) by (destruct (_ =? _); et);
      destruct z; first [injection H as <-; exact S1|apply swap_eqd in H; eapply eqd_trans; [exact S1|exact H]])).
Qed.

Lemma update_eqd v ns : forall s s', bupdate v ns s = Ok s' -> eqd s s'.
Proof.
  induction ns as [|n ns IH]; intros s s' H; cbn [bupdate] in H; [injection H as <-; et|].
  destruct (bconf s); [injection H as <-; et|]. apply bind_ok in H. destruct H as (s1 & E & H).
  apply visit_eqd in E. apply IH in H. eapply eqd_trans; eauto.
Qed.

Lemma learn_eqd cf s q a b s' : blearn cf s q a b = Ok s' -> eqd s s'.
Proof.
  unfold blearn. cbv zeta. intros H. apply bind_ok in H. destruct H as (s1 & E1 & H).
  apply bind_ok in H. destruct H as (s2 & E2 & H). apply bind_ok in H. destruct H as (s3 & E3 & H).
  destruct (blen cf); [|discriminate]. injection H as <-.
  apply record_eqd in E1. apply bumps_eqd in E3.
  assert (S2 : eqd s1 s2).
  { destruct (Nat.ltb 1 (length q)); [apply record_eqd in E2; auto|]. injection E2 as <-. et. }
  exact (eqd_trans _ _ _ (eqd_trans _ _ _ E1 S2) E3).
Qed.

Lemma analyze_eqd fuel cf : forall s q a b fresh s' r, banalyze fuel cf s q a b fresh = Ok (s', r) -> eqd s s'.
Proof.
  induction fuel as [|f IH]; intros s q a b fresh s' r H; [discriminate|]. cbn [banalyze] in H.
  apply bind_ok in H. destruct H as (p & _ & H). destruct p.
  - destruct fresh; [|discriminate]. apply bind_ok in H. destruct H as (s1 & E & H). injection H as <- <-.
    eapply learn_eqd; eauto.
  - apply bind_ok in H. destruct H as (x & _ & H). destruct (nreason x) as [n|]; [|discriminate].
    apply bind_ok in H. destruct H as (c & _ & H). apply bind_ok in H. destruct H as (w & _ & H). eapply IH; eauto.
Qed.

Lemma choose_eqd cf s s' l : bchoose cf s = Ok (s', l) -> eqd s s'.
Proof.
  unfold bchoose, bchoose_vsids. intro H. destruct (bvsids cf); apply bind_ok in H; destruct H as (x & _ & H);
    injection H as <- _; et.
Qed.


(** ** The invariant *)

Section Range.
Variable NV : Z.
Variable U : Z -> Z.

Definition vars : list Z := zrange 0 (NV + 1).
Definition V : Z := zs (fun v => cnt (U v)) vars.
Definition free (s : bst) : Z := zs (fun v => cnt (bcur s v)) vars.
Definition placed (s : bst) : Z := zs (fun v => Z.of_nat (length (bnodes s v))) vars.

Record fair (s : bst) : Prop := {
  f_nv : bnv s = NV;
  f_cur : forall v, narrow (bcur s v);
  f_nodes : forall v x, In x (bnodes s v) -> narrow (nvals x) /\ 1 <= cnt (nvals x);
  f_sum : forall v, cnt (bcur s v) + nsum (bnodes s v) <= cnt (U v);
  f_aix : baix s = placed s
}.

Lemma fair_eqd s s' : eqd s s' -> fair s -> fair s' /\ free s' = free s.
Proof.
  intros (E1 & E2 & E3 & E4 & E5 & E6) [A B C D E]. split.
  - split; unfold placed in *; rewrite ?E1, ?E2, ?E3, ?E4; auto.
  - unfold free. rewrite E2. reflexivity.
Qed.

Lemma free_nonneg s : 0 <= free s.
Proof. apply zs_nonneg. intros; apply cnt_nonneg. Qed.

Lemma fair_bound s : fair s -> 0 <= baix s /\ baix s + free s <= V.
Proof.
  intros [A B C D E]. split.
  - rewrite E. apply zs_nonneg. lia.
  - rewrite E. unfold placed, free, V. rewrite <- zs_add. apply zs_le. intros v _. specialize (D v).
    pose proof (nsum_length (bnodes s v) (fun x Hx => proj2 (C v x Hx))). lia.
Qed.

Lemma V_nonneg : 0 <= V.
Proof. apply zs_nonneg. intros; apply cnt_nonneg. Qed.

(** A reduction that changes the domain takes at least one value away. *)
Lemma reduce_fair s l s' : breduce s l = Ok s' -> fair s ->
  fair s' /\ bunits s' = bunits s /\ blevel s' = blevel s /\ free s' + (if Z.ldiff (bcur s (fst l)) (snd l) =? 0 then 0 else 1) <= free s.
Proof.
  unfold breduce. intros H F. apply bind_ok in H. destruct H as (u & E & H).
  assert (R : In (fst l) vars).
  { apply in_zrange. unfold bvar in E. destruct ((0 <=? fst l) && (fst l <=? bnv s)) eqn:Q; [|discriminate]. rewrite (f_nv s F) in Q. lia. }
  destruct (Z.eqb_spec (Z.ldiff (bcur s (fst l)) (snd l)) 0) as [Z0|NZ]; [injection H as <-; split; [auto|]; split; [auto|]; split; [auto|lia]|].
  cbv zeta in H.
  set (v := fst l) in *. set (ch := Z.ldiff (bcur s v) (snd l)) in *.
  match type of H with bupdate _ ?x _ = _ => idtac end.
  match type of H with bupdate _ _ ?x = _ => set (s1 := x) in * end.
  assert (CH : narrow ch /\ 1 <= cnt ch) by (assert (N : narrow ch) by (apply narrow_ldiff; apply F); split; auto; apply narrow_pos; auto).
  pose proof (cnt_split (bcur s v) (snd l)) as SP. fold ch in SP.
  assert (C1 : forall y, bcur s1 y = if y =? v then Z.land (bcur s v) (snd l) else bcur s y) by (intro y; reflexivity).
  assert (N1 : forall y, bnodes s1 y = if y =? v then mkNode (baix s + 1) (blevel s) (buc s) ch :: bnodes s v else bnodes s y) by (intro y; reflexivity).
  assert (F1 : fair s1).
  { destruct F as [A B C D E1]. split.
    - exact A.
    - intro y. rewrite C1. destruct (y =? v); auto. apply narrow_land. auto.
    - intros y x. rewrite N1. destruct (y =? v); [|apply C]. intros [<-|Hx]; [exact CH|apply (C v x Hx)].
    - intro y. rewrite C1, N1. destruct (Z.eqb_spec y v) as [->|]; auto. cbn [nsum fold_right nvals]. fold (nsum (bnodes s v)). specialize (D v). lia.
    - change (baix s1) with (baix s + 1). unfold placed in *.
      rewrite (zs_upd (fun y => Z.of_nat (length (bnodes s y))) (fun y => Z.of_nat (length (bnodes s1 y))) v vars (nodup_zrange _ _) R).
      + rewrite <- E1, N1, Z.eqb_refl. cbn [length]. lia.
      + intros y Hy. rewrite N1. destruct (Z.eqb_spec y v); [contradiction|reflexivity]. }
  assert (FR : free s1 + 1 <= free s).
  { unfold free. rewrite (zs_upd (fun y => cnt (bcur s y)) (fun y => cnt (bcur s1 y)) v vars (nodup_zrange _ _) R).
    - rewrite C1, Z.eqb_refl. lia.
    - intros y Hy. rewrite C1. destruct (Z.eqb_spec y v); [contradiction|reflexivity]. }
  assert (U1 : bunits s1 = bunits s /\ blevel s1 = blevel s) by (split; reflexivity). clearbody s1.
  apply update_eqd in H. destruct (fair_eqd _ _ H F1) as (F2 & E2). destruct H as (_ & _ & _ & _ & E3 & E4).
  split; auto. split; [lia|]. split; lia.
Qed.

Lemma sat_open s l : bsat s l = Ok SatUn -> Z.ldiff (bcur s (fst l)) (snd l) <> 0.
Proof.
  unfold bsat. intro H. apply bind_ok in H. destruct H as (u & _ & H). destruct (Z.eqb_spec (Z.ldiff (bcur s (fst l)) (snd l)) 0); [discriminate|auto].
Qed.

Lemma prop_fair fuel : forall s s', bprop fuel s = Ok s' -> fair s ->
  fair s' /\ blevel s' = blevel s /\ bunits s <= bunits s' /\ bunits s' + free s' <= bunits s + free s.
Proof.
  induction fuel as [|f IH]; intros s s' H F; [discriminate|]. cbn [bprop] in H.
  assert (TRIV : forall q, eqd s q -> fair q /\ blevel q = blevel s /\ bunits s <= bunits q /\ bunits q + free q <= bunits s + free s).
  { intros q Q. destruct (fair_eqd _ _ Q F) as (Q1 & Q2). destruct Q as (_ & _ & _ & _ & Q3 & Q4). split; auto. split; auto. lia. }
  destruct (bconf s). { injection H as <-. apply TRIV. et. }
  destruct (bulist s) as [|n rest]; [injection H as <-; apply TRIV; et|].
  apply bind_ok in H. destruct H as (c & _ & H). apply bind_ok in H. destruct H as (x & Ex & H).
  set (s1 := set_bulist (set_buc s (Some n)) rest) in *.
  destruct (TRIV s1 ltac:(et)) as (F1 & L1 & U1 & P1).
  assert (RED : forall l, bsat s1 l = Ok SatUn -> (let* s := breduce s1 l in bprop f (set_bunits s (bunits s + 1))) = Ok s' ->
    fair s' /\ blevel s' = blevel s /\ bunits s <= bunits s' /\ bunits s' + free s' <= bunits s + free s).
  { intros l S0 E. apply sat_open in S0. apply bind_ok in E. destruct E as (s2 & E & E').
    destruct (reduce_fair _ _ _ E F1) as (F2 & U2 & L2 & P2). destruct (Z.eqb_spec (Z.ldiff (bcur s1 (fst l)) (snd l)) 0); [contradiction|].
    assert (F3 : fair (set_bunits s2 (bunits s2 + 1))) by (destruct F2; split; auto).
    destruct (IH _ _ E' F3) as (F4 & L4 & U4 & P4). change (bunits (set_bunits s2 (bunits s2 + 1))) with (bunits s2 + 1) in *.
    change (free (set_bunits s2 (bunits s2 + 1))) with (free s2) in *. change (blevel (set_bunits s2 (bunits s2 + 1))) with (blevel s2) in *.
    split; [exact F4|]. split; [lia|]. split; lia. }
  assert (STEP : bprop f s1 = Ok s' -> fair s' /\ blevel s' = blevel s /\ bunits s <= bunits s' /\ bunits s' + free s' <= bunits s + free s).
  { intro E. destruct (IH _ _ E F1) as (F4 & L4 & U4 & P4). split; [exact F4|]. split; [lia|]. split; lia. }
  destruct x; eauto; (destruct (Nat.ltb 1 (length c)); [|eauto];
    apply bind_ok in H; destruct H as (y & Ey & H); destruct y; eauto).
Qed.

(** ** Going back *)

Lemma pop_fair lev : forall ns cur aix ns' cur' aix', bpop lev ns cur aix = (ns', cur', aix') ->
  cnt cur' + nsum ns' <= cnt cur + nsum ns /\ aix' = aix - Z.of_nat (length ns) + Z.of_nat (length ns') /\
  (forall x, In x ns' -> In x ns) /\ (narrow cur -> (forall x, In x ns -> narrow (nvals x)) -> narrow cur').
Proof.
  induction ns as [|x ns IH]; intros cur aix ns' cur' aix' H; cbn [bpop] in H.
  - injection H as <- <- <-. split; [lia|]. split; [lia|]. auto.
  - destruct (lev <? nlev x).
    + apply IH in H. destruct H as (H1 & H2 & H3 & H4). cbn [nsum fold_right length]. fold (nsum ns). pose proof (cnt_lor cur (nvals x)).
      split; [lia|]. split; [lia|]. split; [intros; right; auto|]. intros N1 N2. apply H4; [apply narrow_lor; auto; apply N2; left; auto|intros; apply N2; right; auto].
    + injection H as <- <- <-. split; [lia|]. split; [lia|]. auto.
Qed.

Lemma undo_var_fair s v : In v vars -> fair s -> fair (bundo_var s v) /\ bunits (bundo_var s v) = bunits s /\ blevel (bundo_var s v) = blevel s.
Proof.
  intros R [A B C D E]. unfold bundo_var. destruct (bpop (blevel s) (bnodes s v) (bcur s v) (baix s)) as ((ns & cur) & aix) eqn:P.
  apply pop_fair in P. destruct P as (P1 & P2 & P3 & P4). split; [|split; reflexivity]. split.
  - exact A.
  - intro y. cbn. unfold upd1. destruct (y =? v); auto. apply P4; auto. intros x Hx. apply (C v x Hx).
  - intros y x. cbn. unfold upd1. destruct (y =? v); [|apply C]. intro Hx. apply (C v x). auto.
  - intro y. cbn [set_baix set_bcur set_bnodes bcur bnodes]. unfold upd1. destruct (Z.eqb_spec y v) as [->|]; auto. specialize (D v). lia.
  - unfold placed in *. cbn [set_baix set_bcur set_bnodes baix bnodes].
    rewrite (zs_upd (fun y => Z.of_nat (length (bnodes s y))) (fun y => Z.of_nat (length (upd1 (bnodes s) v ns y))) v vars (nodup_zrange _ _) R).
    + unfold upd1. rewrite Z.eqb_refl, <- E. lia.
    + intros y Hy. unfold upd1. destruct (Z.eqb_spec y v); [contradiction|reflexivity].
Qed.

Lemma undo_fair s : fair s -> fair (bundo s) /\ bunits (bundo s) = bunits s /\ blevel (bundo s) = blevel s.
Proof.
  intro F. unfold bundo. assert (I : forall v, In v (zrange 1 (bnv s)) -> In v vars).
  { intros v Hv. apply in_zrange in Hv. apply in_zrange. rewrite (f_nv s F) in Hv. lia. }
  revert I. generalize (zrange 1 (bnv s)) as vs. intro vs. revert s F. induction vs as [|v vs IH]; intros s F I; [auto|]. cbn [fold_left].
  destruct (undo_var_fair s v (I v (or_introl eq_refl)) F) as (F1 & U1 & L1).
  destruct (IH _ F1 (fun y Hy => I y (or_intror Hy))) as (F2 & U2 & L2). split; auto. split; congruence.
Qed.

Lemma analyze_lev fuel cf : forall s q a b fresh s' ls b', banalyze fuel cf s q a b fresh = Ok (s', (ls, b')) ->
  forall x, bnode_of s' b' = Ok x -> length ls <> 1%nat -> nlev x < blevel s.
Proof.
  induction fuel as [|f IH]; intros s q a b fresh s' ls b' H x X L; [discriminate|]. cbn [banalyze] in H.
  apply bind_ok in H. destruct H as (p & Ep & H). destruct p.
  - destruct fresh; [|discriminate]. apply bind_ok in H. destruct H as (s1 & E & H). injection H as <- <- <-.
    unfold bpotent in Ep. destruct (Nat.eqb_spec (length q) 1); [contradiction|]. apply bind_ok in Ep. destruct Ep as (y & Ey & Ep).
    injection Ep as Ep. apply learn_eqd in E. destruct E as (E1 & _ & E3 & _).
    unfold bnode_of, bvar in X, Ey. rewrite E1, E3 in X. destruct ((0 <=? fst b) && (fst b <=? bnv s)); [|discriminate]. cbn [bind] in *. assert (x = y) by congruence. subst. lia.
  - apply bind_ok in H. destruct H as (y & _ & H). destruct (nreason y) as [n|]; [|discriminate].
    apply bind_ok in H. destruct H as (c & _ & H). apply bind_ok in H. destruct H as (w & _ & H). eapply IH; eauto.
Qed.

Lemma conflict_fair fuel cf r rc s s' rc' : bconflict fuel cf r rc s = Ok (s', rc') -> fair s ->
  fair s' /\ bunits s' = bunits s /\ blevel s' <= Z.max 0 (blevel s) /\ brest s <= brest s' <= brest s + 1.
Proof.
  unfold bconflict. intros H F. apply bind_ok in H. destruct H as (ls & _ & H).
  apply bind_ok in H. destruct H as ((s1, (q, b)) & E & H). pose proof (analyze_eqc _ _ _ _ _ _ _ _ _ E) as (_ & E3).
  pose proof (analyze_lev _ _ _ _ _ _ _ _ _ _ E) as LV. apply analyze_eqd in E. destruct (fair_eqd _ _ E F) as (F1 & _). destruct E as (_ & _ & _ & _ & E5 & E6).
  apply bind_ok in H. destruct H as (lev & E & H). cbv zeta in *.
  assert (LE : lev <= Z.max 0 (blevel s)).
  { destruct (Nat.ltb_spec 1 (length q)); [|injection E as <-; lia]. apply bind_ok in E. destruct E as (x & Ex & E). injection E as <-.
    specialize (LV x Ex ltac:(lia)). lia. }
  set (s2 := set_bconf (set_bback (set_blevel s1 lev) (bback (set_blevel s1 lev) + 1)) false) in *.
  assert (F2 : fair s2) by (destruct F1; split; auto). assert (U2 : bunits s2 = bunits s) by (cbn; lia).
  assert (L2 : blevel s2 = lev) by reflexivity. assert (R2 : brest s2 = brest s) by (cbn; lia).
  destruct (undo_fair s2 F2) as (F3 & U3 & L3). destruct (undo_eqc s2) as (_ & R3). clearbody s2. set (s3 := bundo s2) in *. clearbody s3.
  destruct (bback s2 =? rc); injection H as <- <-.
  - split; [destruct F3; split; auto|]. split; [cbn; lia|]. split; cbn; lia.
  - split; [destruct F3; split; auto|]. split; [cbn; lia|]. split; cbn; lia.
Qed.

(** ** Decisions *)

Definition picked (s : bst) (best : spec_float * Z * Z) : Prop :=
  snd (fst best) = -1 \/ (1 < bcount (bcur s (snd (fst best))))%nat /\ Z.testbit (bcur s (snd (fst best))) (snd best) = true.

Lemma picked_step s v j b1 b2 : (1 < bcount (bcur s v))%nat -> picked s b1 -> bscore_step s v b1 j = Ok b2 -> picked s b2.
Proof.
  unfold bscore_step. intros L P E. destruct (max_domain <=? j); [discriminate|].
  destruct (Z.testbit (bcur s v) j) eqn:B; cbn [andb] in E; [|injection E as <-; exact P].
  destruct (SFltb (fst (fst b1)) (bsc s v j)); [|injection E as <-; exact P].
  injection E as <-. unfold picked. cbn [fst snd]. right. split; assumption.
Qed.

Lemma picked_var s v b1 b2 : picked s b1 -> bscore_var s b1 v = Ok b2 -> picked s b2.
Proof.
  unfold bscore_var. intros P E. destruct (Nat.ltb 1 (bcount (bcur s v))) eqn:L; [|injection E as <-; exact P].
  apply Nat.ltb_lt in L. eapply (foldM_inv_ok (bscore_step s v) (picked s)); [exact P| |exact E].
  intros j c1 c2 _ P2 E2. eapply picked_step; eauto.
Qed.

Lemma score_picked s best : foldM (bscore_var s) (zrange 0 (bnv s + 1)) (f64_mone, -1, -1) = Ok best -> picked s best.
Proof.
  apply (foldM_inv_ok (bscore_var s) (picked s)); [left; reflexivity|].
  intros v b1 b2 _ P E. eapply picked_var; eauto.
Qed.

Lemma two_bits m : (1 < bcount m)%nat -> exists i j, i <> j /\ Z.testbit m i = true /\ Z.testbit m j = true.
Proof.
  unfold bcount. assert (ND : NoDup (filter (Z.testbit m) (zrange 0 max_domain))) by (apply NoDup_filter; apply nodup_zrange).
  assert (IN : forall i, In i (filter (Z.testbit m) (zrange 0 max_domain)) -> Z.testbit m i = true) by (intros i Hi; apply filter_In in Hi; apply Hi).
  revert ND IN. generalize (filter (Z.testbit m) (zrange 0 max_domain)) as l. intros l ND IN L.
  destruct l as [|a [|b l]]; cbn [length] in L; try lia. exists a, b. split; [|split; apply IN; cbn; auto].
  inversion ND as [|? ? Q]; subst. intros ->. apply Q. left. reflexivity.
Qed.

Lemma shift_bit i j : 0 <= i -> 0 <= j -> i <> j -> Z.testbit (Z.shiftl 1 j) i = false.
Proof. intros I J N. rewrite Z.shiftl_1_l. apply Z.pow2_bits_false; lia. Qed.

Lemma two_left m j : narrow m -> 0 <= j -> (1 < bcount m)%nat -> Z.ldiff m (Z.shiftl 1 j) <> 0.
Proof.
  intros N J L Z0. destruct (two_bits m L) as (a & b & NE & A & B).
  assert (X : forall i, Z.testbit m i = true -> i = j).
  { intros i Hi. destruct (Z.eq_dec i j) as [|NI]; auto. exfalso. pose proof (N i Hi) as R.
    assert (Y : Z.testbit (Z.ldiff m (Z.shiftl 1 j)) i = true) by (rewrite Z.ldiff_spec, Hi, shift_bit by lia; reflexivity).
    rewrite Z0, Z.bits_0 in Y. discriminate. }
  apply NE. rewrite (X a A), (X b B). reflexivity.
Qed.

Lemma lazy_open s : forall ns l, bchoose_lazy s ns = Ok l -> fst l <> -1 -> Z.ldiff (bcur s (fst l)) (snd l) <> 0.
Proof.
  induction ns as [|n ns IH]; intros l E NL; cbn [bchoose_lazy] in E; [injection E as <-; exfalso; apply NL; reflexivity|].
  apply bind_ok in E. destruct E as (x & Ex & E). destruct x; auto. injection E as <-. apply sat_open. exact Ex.
Qed.

Lemma choose_open cf s s' l : bchoose cf s = Ok (s', l) -> fst l <> -1 -> (forall v, narrow (bcur s v)) -> Z.ldiff (bcur s (fst l)) (snd l) <> 0.
Proof.
  intros H NL N. unfold bchoose in H. destruct (bvsids cf).
  - unfold bchoose_vsids in H. apply bind_ok in H. destruct H as (((x & v) & j) & E & H). apply score_picked in E. unfold picked in E.
    cbn [fst snd] in E, H. injection H as _ <-. cbn [fst snd] in *. destruct E as [E|(L & B)]; [contradiction|].
    pose proof (N v j B) as R. destruct (Z.eqb_spec j (-1)); [lia|]. apply two_left; auto; lia.
  - apply bind_ok in H. destruct H as (m & E & H). injection H as <- <-. eapply lazy_open; eauto.
Qed.

(** ** The loop *)

Definition within (s : bst) : Prop :=
  fair s /\ 0 <= bdec s /\ 0 <= bunits s /\ bdec s + bunits s + free s <= (bback s + 1) * V /\ 0 <= brest s <= bback s /\
  bback s <= Z.of_nat (btick s) /\ bdec s <= Z.of_nat (btick s) /\ blevel s <= bdec s.

Lemma iter_within fuel cf clk r rc s q : biter fuel cf clk r rc s = Ok q -> within s ->
  match q with inl (_, s') => within s' | inr (_, s') => within s' end.
Proof.
  unfold biter. intros H (F & D & Un & S & R & T1 & T2 & L). set (s0 := set_btick s (Datatypes.S (btick s))) in *.
  assert (F0 : fair s0) by (destruct F; split; auto).
  assert (T0 : btick s0 = Datatypes.S (btick s)) by reflexivity. assert (D0 : bdec s0 = bdec s) by reflexivity.
  assert (B0 : bback s0 = bback s) by reflexivity. assert (U0 : bunits s0 = bunits s) by reflexivity. assert (L0 : blevel s0 = blevel s) by reflexivity.
  assert (R0 : brest s0 = brest s) by reflexivity. assert (FR0 : free s0 = free s) by reflexivity. clearbody s0.
  assert (W0 : within s0) by (unfold within; rewrite T0, D0, B0, U0, L0, R0, FR0; repeat (split; [first [assumption|lia]|]); lia).
  destruct (clk (btick s)); [injection H as <-; exact W0|].
  destruct (bconf s0 && (blevel s0 =? 0)); [injection H as <-; exact W0|].
  apply bind_ok in H. destruct H as ((s1, rc1) & E1 & H). pose proof V_nonneg as VN.
  assert (W1 : within s1 /\ btick s1 = Datatypes.S (btick s) /\ bdec s1 = bdec s).
  { destruct (bconf s0).
    - pose proof (conflict_tick _ _ _ _ _ _ _ E1) as (X1 & X2 & X3 & _). destruct (conflict_fair _ _ _ _ _ _ _ E1 F0) as (Y1 & Y2 & Y3 & Y4).
      pose proof (fair_bound _ Y1) as (Y5 & Y6). pose proof (free_nonneg s) as FN. split; [|split; lia].
      unfold within. rewrite X1, X2, X3, Y2, T0, D0, B0, U0. rewrite R0 in Y4. split; [exact Y1|]. split; [lia|]. split; [lia|].
      split; [nia|]. split; [lia|]. split; [lia|]. split; lia.
    - injection E1 as <- <-. auto. }
  destruct W1 as ((F1 & D1 & U1 & S1 & R1 & T11 & T12 & L1) & T1' & D1').
  apply bind_ok in H. destruct H as (s2 & E2 & H).
  assert (W2 : within s2 /\ btick s2 = Datatypes.S (btick s) /\ bdec s2 = bdec s).
  { destruct (bulist s1); [injection E2 as <-; split; [repeat (split; [first [assumption|lia]|]); lia|auto]|].
    pose proof (prop_eqc _ _ _ E2) as (Q1 & Q4). pose proof (prop_eqt _ _ _ E2) as (Q2 & Q3).
    destruct (prop_fair _ _ _ E2 F1) as (P1 & P2 & P3 & P4).
    split; [|split; congruence]. unfold within. rewrite Q1, Q2, Q3, Q4, P2. split; [exact P1|]. repeat (split; [first [assumption|lia]|]); lia. }
  destruct W2 as (W2 & T2' & D2').
  destruct (bconf s2); [injection H as <-; exact W2|].
  apply bind_ok in H. destruct H as ((s3, l) & E3 & H). pose proof (choose_eqc _ _ _ _ E3) as (Q1 & Q4).
  pose proof (choose_eqt _ _ _ _ E3) as (Q2 & Q3). pose proof (choose_eqd _ _ _ _ E3) as Q5.
  destruct W2 as (F2 & D2 & U2 & S2 & R2 & T21 & T22 & L2). destruct (fair_eqd _ _ Q5 F2) as (F3 & Q6). destruct Q5 as (_ & Q9 & _ & _ & Q7 & Q8).
  destruct (Z.eqb_spec (fst l) (-1)) as [EL|NL].
  { injection H as <-. unfold within. rewrite Q1, Q2, Q3, Q4, Q6, Q7, Q8. split; [exact F3|]. repeat (split; [first [assumption|lia]|]); lia. }
  apply bind_ok in H. destruct H as (s4 & E4 & H). injection H as <-.
  pose proof (choose_open _ _ _ _ E3 NL (f_cur _ F2)) as OP.
  pose proof (reduce_eqc _ _ _ E4) as (R1' & R4'). pose proof (reduce_eqt _ _ _ E4) as (R2' & R3'). cbn in R1', R2', R3', R4'.
  set (s3' := set_buc (set_blevel (set_bdec s3 (bdec s3 + 1)) (blevel (set_bdec s3 (bdec s3 + 1)) + 1)) None) in *.
  assert (F3' : fair s3') by (destruct F3; split; auto).
  destruct (reduce_fair _ _ _ E4 F3') as (F4 & U4 & L4 & P4).
  assert (C4 : bcur s3' = bcur s2) by (rewrite <- Q9; reflexivity). rewrite C4 in P4.
  destruct (Z.eqb_spec (Z.ldiff (bcur s2 (fst l)) (snd l)) 0); [contradiction|].
  assert (U4' : bunits s3' = bunits s2) by (rewrite <- Q7; reflexivity). assert (L4' : blevel s3' = blevel s2 + 1) by (rewrite <- Q8; reflexivity).
  assert (P4' : free s3' = free s2) by (rewrite <- Q6; reflexivity). clearbody s3'.
  unfold within. rewrite R1', R2', R3', R4', U4, U4', L4, L4', Q1, Q2, Q3, Q4. split; [exact F4|]. split; [lia|]. split; [lia|]. split; [lia|].
  split; [lia|]. split; [lia|]. split; lia.
Qed.

Lemma loop_within cf clk r fuel : forall rc s v s', bloop fuel cf clk r rc s = Ok (v, s') -> within s -> within s'.
Proof.
  induction fuel as [|f IH]; intros rc s v s' H W; [discriminate|]. cbn [bloop] in H.
  apply bind_ok in H. destruct H as (q & E & H). apply iter_within in E; auto. destruct q as [(v1, s1)|(rc1, s1)].
  - injection H as <- <-. exact E.
  - eapply IH; eauto.
Qed.

End Range.

(** ** The start *)

Definition dsum (is : list item) : Z := fold_right (fun i a => match i with IDom d => d + a | ICls _ => a end) 0 is.

Definition fresh_at (m : Z) (s : bst) : Prop :=
  0 <= bnv s /\ (forall v, bnodes s v = []) /\ baix s = 0 /\ bunits s = 0 /\ blevel s = 0 /\ brest s = 0 /\ (forall v, narrow (bcur s v)) /\
  zs (fun v => cnt (bcur s v)) (zrange 0 (bnv s + 1)) <= m.

Lemma ones_narrow d : 0 <= d -> narrow (if d <=? max_domain then Z.ones d else 0).
Proof.
  intros D i H. destruct (Z.leb_spec d max_domain); [|rewrite Z.bits_0 in H; discriminate].
  destruct (Z.lt_ge_cases i 0) as [N|N]; [rewrite Z.testbit_neg_r in H by lia; discriminate|].
  destruct (Z.lt_ge_cases i d) as [M|M]; [lia|]. rewrite Z.ones_spec_high in H by lia. discriminate.
Qed.

Lemma ones_cnt d : 0 <= d -> cnt (if d <=? max_domain then Z.ones d else 0) <= d.
Proof.
  intros D. unfold cnt, bcount. set (m := if d <=? max_domain then Z.ones d else 0).
  assert (L : (length (filter (Z.testbit m) (zrange 0 max_domain)) <= length (zrange 0 d))%nat).
  { apply NoDup_incl_length; [apply NoDup_filter; apply nodup_zrange|]. intros i Hi. apply filter_In in Hi. destruct Hi as (R & B).
    apply in_zrange in R. apply in_zrange. subst m. destruct (Z.leb_spec d max_domain); [|rewrite Z.bits_0 in B; discriminate].
    destruct (Z.lt_ge_cases i d) as [M|M]; [lia|]. rewrite Z.ones_spec_high in B by lia. discriminate. }
  unfold zrange in L at 2. rewrite map_length, seq_length in L. lia.
Qed.

Lemma zrange_last n : 0 <= n -> zrange 0 (n + 1) = zrange 0 n ++ [n].
Proof.
  intro N. unfold zrange. replace (Z.to_nat (n + 1)) with (S (Z.to_nat n)) by lia. rewrite seq_S, map_app. cbn. f_equal. f_equal. lia.
Qed.

Lemma zs_app f a b : zs f (a ++ b) = zs f a + zs f b.
Proof. induction a as [|x a IH]; auto. cbn [app zs fold_right]. fold (zs f a) (zs f (a ++ b)). lia. Qed.

Definition still (s s' : bst) : Prop := eqd s s' /\ brest s' = brest s.

Lemma still_fresh m s s' : still s s' -> fresh_at m s -> fresh_at m s'.
Proof.
  intros ((E1 & E2 & E3 & E4 & E5 & E6) & E7) (A & B & C & D & E & F & G & H).
  unfold fresh_at. rewrite E1, E2, E3, E4, E5, E6, E7. auto 10.
Qed.

Lemma still_trans a b c : still a b -> still b c -> still a c.
Proof. intros (A & B) (C & D). split; [eapply eqd_trans; eauto|congruence]. Qed.

Lemma clause_still s c s' : badd_clause s c = Ok s' -> still s s'.
Proof.
  unfold badd_clause. intro H. apply bind_ok in H. destruct H as (k & _ & H). cbv zeta in H. apply bind_ok in H. destruct H as (s1 & E1 & H).
  assert (S1 : still s s1) by (pose proof (bumps_eqc _ _ _ E1) as (_ & X); apply bumps_eqd in E1; split; [exact E1|exact X]).
  set (s2 := if Nat.eqb (length k) 1 then set_bulist s1 (bulist s1 ++ [length (bcl s)]) else s1) in *.
  assert (S2 : still s s2) by (subst s2; destruct (Nat.eqb (length k) 1); exact S1). clearbody s2.
  destruct k as [|a k]; [discriminate|]. apply bind_ok in H. destruct H as (s3 & E3 & H).
  assert (S3 : still s s3). { pose proof (record_eqc _ _ _ _ E3) as (_ & X). apply record_eqd in E3. eapply still_trans; [exact S2|split; [exact E3|exact X]]. }
  destruct k as [|b k]; [injection H as <-; exact S3|].
  pose proof (record_eqc _ _ _ _ H) as (_ & X). apply record_eqd in H. eapply still_trans; [exact S3|split; [exact H|exact X]].
Qed.

Lemma item_fresh m s i s' : badd_item s i = Ok s' -> fresh_at m s -> fresh_at (match i with IDom d => m + d | ICls _ => m end) s'.
Proof.
  destruct i as [d|c]; cbn [badd_item]; intros H F; [|apply clause_still in H; eapply still_fresh; eauto].
  unfold badd_domain in H. destruct (Z.ltb_spec d 0); [discriminate|]. injection H as <-. destruct F as (A & B & C & D & E & G & N & S).
  unfold fresh_at. cbn [set_bcur set_bdom set_bnv bnv bcur bnodes baix bunits blevel brest]. split; [lia|]. repeat (split; [assumption|]). split.
  - intro v. unfold upd1. destruct (v =? bnv s + 1); auto. apply ones_narrow. auto.
  - rewrite zrange_last by lia. rewrite zs_app.
    assert (E1 : zs (fun v => cnt (upd1 (bcur s) (bnv s + 1) (if d <=? max_domain then Z.ones d else 0) v)) (zrange 0 (bnv s + 1)) = zs (fun v => cnt (bcur s v)) (zrange 0 (bnv s + 1))).
    { apply zs_ext. intros y Hy. apply in_zrange in Hy. unfold upd1. destruct (Z.eqb_spec y (bnv s + 1)); [lia|reflexivity]. }
    rewrite E1. cbn [zs fold_right]. unfold upd1. rewrite Z.eqb_refl. pose proof (ones_cnt d ltac:(lia)). lia.
Qed.

Lemma items_fresh : forall is m s s', foldM badd_item is s = Ok s' -> fresh_at m s -> fresh_at (m + dsum is) s'.
Proof.
  induction is as [|i is IH]; intros m s s' H F; cbn [foldM] in H.
  - injection H as <-. cbn. rewrite Z.add_0_r. exact F.
  - apply bind_ok in H. destruct H as (s1 & E & H). pose proof (item_fresh _ _ _ _ E F) as F1. specialize (IH _ _ _ H F1).
    cbn [dsum fold_right]. fold (dsum is). destruct i; [rewrite Z.add_assoc|]; exact IH.
Qed.

Lemma dsum_values p : dsum (items_of p) = values p.
Proof.
  unfold items_of, values. rewrite <- (Z.add_0_r (fold_right Z.add 0 (doms p))).
  assert (C : dsum (map ICls (clauses p)) = 0) by (induction (clauses p); auto). revert C. generalize (map ICls (clauses p)) as cs. intros cs C.
  induction (doms p) as [|d ds IH]; cbn [map app fold_right dsum]; [exact C|]. fold (dsum (map IDom ds ++ cs)). lia.
Qed.

Lemma build_fresh is s : bbuild is = Ok s -> fresh_at (dsum is) s.
Proof.
  intro H. apply (items_fresh is 0 binit s) in H; [exact H|]. unfold fresh_at. cbn. repeat (split; [first [lia|reflexivity]|]).
  split; [intros v i Hi; rewrite Z.bits_0 in Hi; discriminate|vm_compute; discriminate].
Qed.

Lemma build_within is s : bbuild is = Ok s -> within (bnv s) (bcur s) s /\ V (bnv s) (bcur s) <= dsum is.
Proof.
  intro H. pose proof (build_fresh _ _ H) as (A & B & C & D & E & F & G & S). pose proof (build_tick _ _ H) as (T1 & T2 & T3 & _).
  split; [|exact S]. assert (FS : free (bnv s) s = V (bnv s) (bcur s)) by reflexivity.
  unfold within. rewrite T1, T2, T3, D, E, F, FS. split; [|repeat (split; [lia|]); lia].
  split; auto.
  - intros v x. rewrite B. intros [].
  - intro v. rewrite B. cbn. lia.
  - rewrite C. unfold placed. generalize (vars (bnv s)) as l. induction l as [|x l IH]; auto. cbn [zs fold_right]. rewrite B. cbn [length]. exact IH.
Qed.

(** ** The result *)

Theorem reached_range cf clk r p rc s : bit_reached cf clk r p rc s ->
  0 <= bdec s /\ 0 <= bunits s /\ bdec s + bunits s <= (bback s + 1) * values p /\ 0 <= brest s <= bback s /\
  bback s <= Z.of_nat (btick s) /\ bdec s <= Z.of_nat (btick s) /\ blevel s <= bdec s /\ 0 <= baix s <= values p.
Proof.
  intro H. assert (X : exists NV U, within NV U s /\ V NV U <= values p).
  { induction H as [s H|fuel rc s rc' s' H IH E].
    - exists (bnv s), (bcur s). rewrite <- dsum_values. apply build_within. auto.
    - destruct IH as (NV & U & W & L). exists NV, U. split; auto. apply (iter_within NV U) in E; auto. }
  destruct X as (NV & U & (F & D & Un & S & R & T1 & T2 & L) & LV). pose proof (fair_bound _ _ _ F) as (A1 & A2). pose proof (free_nonneg NV s).
  pose proof (V_nonneg NV U). repeat (split; [first [assumption|lia|nia]|]). lia.
Qed.

Theorem solve_range fuel cf clk r p rep s : bsolve fuel cf clk r p = Ok (rep, s) ->
  0 <= br_decisions rep /\ 0 <= br_units rep /\ br_decisions rep + br_units rep <= (br_backtracks rep + 1) * values p /\
  0 <= br_restarts rep <= br_backtracks rep /\ br_backtracks rep <= Z.of_nat (btick s) /\ br_decisions rep <= Z.of_nat (btick s).
Proof.
  unfold bsolve, bsolve_state. intro H. apply bind_ok in H. destruct H as (s0 & E & H). apply bind_ok in H. destruct H as ((v, s1) & E1 & H).
  destruct (build_within _ _ E) as (W & L). rewrite dsum_values in L. apply (loop_within _ _ _ _ _ _ _ _ _ _ E1) in W.
  assert (X : rep = mkBreport v (bdec s) (bunits s) (bback s) (bnv s) (Z.of_nat (length (bcl s))) (brest s) (br_model rep) (br_verified rep) /\ s = s1).
  { destruct v; [apply bind_ok in H; destruct H as (b & _ & H)| |]; injection H as <- <-; auto. }
  destruct X as (-> & ->). cbn [br_decisions br_units br_backtracks br_restarts].
  destruct W as (F & D & Un & S & R & T1 & T2 & LL). pose proof (free_nonneg (bnv s0) s1). pose proof (V_nonneg (bnv s0) (bcur s0)).
  repeat (split; [first [assumption|lia|nia]|]). lia.
Qed.

Theorem solve_int fuel cf clk r p rep s : bsolve fuel cf clk r p = Ok (rep, s) ->
  (Z.of_nat (btick s) + 1) * values p <= int_max -> Z.of_nat (btick s) <= int_max ->
  forall x, In x [br_decisions rep; br_units rep; br_backtracks rep; br_restarts rep] -> 0 <= x <= int_max.
Proof.
  intros H H1 H2 x I. pose proof (solve_range _ _ _ _ _ _ _ H) as (A & B & C & D & E & F).
  assert (VN : 0 <= values p).
  { unfold bsolve in H. apply bind_ok in H. destruct H as (s0 & E0 & _). destruct (build_within _ _ E0) as (_ & L). rewrite dsum_values in L.
    pose proof (V_nonneg (bnv s0) (bcur s0)). lia. }
  assert (K : br_units rep <= int_max) by nia.
  destruct I as [<-|[<-|[<-|[<-|[]]]]]; lia.
Qed.
