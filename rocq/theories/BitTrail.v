(** * The second solver: sets of values and the trail

    The stacks graphNodes of the variables are the projections of one list of domain
    reductions, the trail (latest first), which the solver does not store. *)

From Verif Require Import Spec Outcome State ModelBuild ModelBit Base.

(** ** Sets of values *)

Definition inn (i m : Z) : Prop := Z.testbit m i = true.

Lemma inn_dec i m : {inn i m} + {~ inn i m}.
Proof. unfold inn. destruct (Z.testbit m i); [left | right]; congruence. Qed.

Lemma inn_land i a b : inn i (Z.land a b) <-> inn i a /\ inn i b.
Proof. unfold inn. rewrite Z.land_spec. apply andb_true_iff. Qed.

Lemma inn_lor i a b : inn i (Z.lor a b) <-> inn i a \/ inn i b.
Proof. unfold inn. rewrite Z.lor_spec. apply orb_true_iff. Qed.

Lemma inn_ldiff i a b : inn i (Z.ldiff a b) <-> inn i a /\ ~ inn i b.
Proof.
  unfold inn. rewrite Z.ldiff_spec, andb_true_iff, negb_true_iff.
  destruct (Z.testbit b i); intuition congruence.
Qed.

Lemma inn_0 i : ~ inn i 0.
Proof. unfold inn. rewrite Z.bits_0. congruence. Qed.

Lemma inn_nonneg i m : inn i m -> 0 <= i.
Proof.
  unfold inn. intro H. destruct (Z.leb_spec 0 i); auto. rewrite Z.testbit_neg_r in H by lia. congruence.
Qed.

Lemma nonzero_inn m : m <> 0 -> exists i, inn i m.
Proof.
  intro H. destruct (Z.lt_trichotomy m 0) as [L|[E|L]]; [|congruence|].
  - exists (Z.succ (Z.log2 (Z.pred (- m)))). unfold inn. apply Z.bits_above_log2_neg; auto. lia.
  - exists (Z.log2 m). apply Z.bit_log2; auto.
Qed.

Lemma inn_nonzero i m : inn i m -> m <> 0.
Proof. intros H E. subst. eapply inn_0; eauto. Qed.

Lemma land_zero a b : Z.land a b = 0 <-> forall i, inn i a -> ~ inn i b.
Proof.
  split.
  - intros E i Ha Hb. apply (inn_0 i). rewrite <- E. apply inn_land; auto.
  - intro H. destruct (Z.eq_dec (Z.land a b) 0) as [E|N]; auto. exfalso.
    destruct (nonzero_inn _ N) as (i & Hi). apply inn_land in Hi. firstorder.
Qed.

Lemma ldiff_zero a b : Z.ldiff a b = 0 <-> forall i, inn i a -> inn i b.
Proof.
  split.
  - intros E i Ha. destruct (inn_dec i b) as [|N]; auto. exfalso. apply (inn_0 i). rewrite <- E.
    apply inn_ldiff; auto.
  - intro H. destruct (Z.eq_dec (Z.ldiff a b) 0) as [E|N]; auto. exfalso.
    destruct (nonzero_inn _ N) as (i & Hi). apply inn_ldiff in Hi. firstorder.
Qed.

Lemma inn_ext a b : (forall i, inn i a <-> inn i b) -> a = b.
Proof.
  intro H. apply Z.bits_inj. intro i. specialize (H i). unfold inn in H.
  destruct (Z.testbit a i), (Z.testbit b i); intuition congruence.
Qed.

Lemma inn_shiftl i d : 0 <= d -> inn i (Z.shiftl 1 d) <-> i = d.
Proof.
  intro Hd. rewrite Z.shiftl_1_l. unfold inn. rewrite Z.pow2_bits_eqb by auto.
  rewrite Z.eqb_eq. intuition.
Qed.

Lemma inn_ones i n : 0 <= n -> inn i (Z.ones n) <-> 0 <= i < n.
Proof.
  intro Hn. unfold inn. rewrite Z.testbit_ones by lia.
  rewrite andb_true_iff, Z.leb_le, Z.ltb_lt. lia.
Qed.

Lemma inn_clearbit i m d : inn i (Z.clearbit m d) <-> inn i m /\ i <> d.
Proof.
  unfold inn. rewrite Z.clearbit_eqb, andb_true_iff, negb_true_iff, Z.eqb_neq. intuition.
Qed.

(** ** Lists *)

Lemma suffix_cmp {A} (t1 a t2 b : list A) : t1 ++ a = t2 ++ b -> (length a <= length b)%nat ->
  exists q, b = q ++ a /\ t1 = t2 ++ q.
Proof.
  revert t2. induction t1 as [|x t1 IH]; intros t2 E L.
  - destruct t2 as [|y t2]; [exists []; split; auto|].
    simpl in E. subst a. simpl in L. rewrite app_length in L. lia.
  - destruct t2 as [|y t2].
    + simpl in E. exists (x :: t1). split; auto.
    + injection E as -> E. destruct (IH _ E L) as (q & -> & ->). exists q. auto.
Qed.

(** ** The trail *)

Definition trail := list (Z * node).

Definition toplev (T : trail) : Z := match T with [] => 0 | (_, x) :: _ => nlev x end.

Definition proj (v : Z) (T : trail) : list node :=
  map snd (filter (fun e => fst e =? v) T).

Definition cut (k : Z) (T : trail) : trail := filter (fun e => nlev (snd e) <=? k) T.

Section Trails.
Variable NV : Z.
Variable F : Z -> Z.

(** The domain of [v] after the reductions of [T]. *)
Fixpoint D (T : trail) (v : Z) : Z :=
  match T with
  | [] => F v
  | (u, x) :: T' => if u =? v then Z.ldiff (D T' v) (nvals x) else D T' v
  end.

Definition falseL (T : trail) (l : blit) : Prop := forall i, inn i (snd l) -> ~ inn i (D T (fst l)).
Definition trueL (T : trail) (l : blit) : Prop := forall i, inn i (D T (fst l)) -> inn i (snd l).

Definition okN (cl : list bclause) (T : trail) (v : Z) (x : node) : Prop :=
  1 <= v <= NV /\ nidx x = Z.of_nat (length T) + 1 /\ nvals x <> 0 /\
  (forall i, inn i (nvals x) -> inn i (D T v)) /\
  (exists i, inn i (D T v) /\ ~ inn i (nvals x)) /\
  match nreason x with
  | None => nlev x = toplev T + 1
  | Some n => nlev x = toplev T /\
      exists R B, nth_error cl n = Some R /\ In (v, B) R /\ (forall i, inn i (nvals x) -> ~ inn i B) /\
        forall l, In l R -> fst l <> v -> falseL T l
  end.

Fixpoint okT (cl : list bclause) (T : trail) : Prop :=
  match T with
  | [] => True
  | (v, x) :: T' => okN cl T' v x /\ okT cl T'
  end.

Lemma D_cons T v x i w : inn i (D ((v, x) :: T) w) <-> inn i (D T w) /\ (v = w -> ~ inn i (nvals x)).
Proof.
  cbn [D]. destruct (Z.eqb_spec v w) as [->|N].
  - rewrite inn_ldiff. intuition.
  - intuition congruence.
Qed.

Lemma D_other T v x w : v <> w -> D ((v, x) :: T) w = D T w.
Proof. intro N. cbn [D]. destruct (Z.eqb_spec v w); congruence. Qed.

Lemma D_app T1 T v i : inn i (D (T1 ++ T) v) -> inn i (D T v).
Proof.
  induction T1 as [|(u, x) T1 IH]; auto. simpl app. rewrite D_cons. intuition.
Qed.

Lemma D_full T v i : inn i (D T v) -> inn i (F v).
Proof. intro H. rewrite <- (app_nil_r T) in H. apply D_app in H. exact H. Qed.

Lemma false_app T1 T l : falseL T l -> falseL (T1 ++ T) l.
Proof. intros H i Hi HD. apply D_app in HD. firstorder. Qed.

Lemma true_app T1 T l : trueL T l -> trueL (T1 ++ T) l.
Proof. intros H i HD. apply D_app in HD. firstorder. Qed.

Lemma false_other T v x l : fst l <> v -> falseL ((v, x) :: T) l <-> falseL T l.
Proof. intro N. unfold falseL. rewrite D_other by congruence. reflexivity. Qed.

Lemma true_other T v x l : fst l <> v -> trueL ((v, x) :: T) l <-> trueL T l.
Proof. intro N. unfold trueL. rewrite D_other by congruence. reflexivity. Qed.

Lemma okT_app cl T1 T : okT cl (T1 ++ T) -> okT cl T.
Proof. induction T1 as [|(u, x) T1 IH]; auto. intros (_ & H). auto. Qed.

Lemma okT_grow cl cl' T : okT cl T -> okT (cl ++ cl') T.
Proof.
  induction T as [|(v, x) T IH]; auto. intros (H & HT). split; auto.
  destruct H as (H1 & H2 & H3 & H4 & H5 & H6). do 5 (split; auto).
  destruct (nreason x) as [n|]; auto. destruct H6 as (HL & R & B & E & H6). split; auto.
  exists R, B. split; auto. rewrite nth_error_app1; auto. eapply nth_error_lt; eauto.
Qed.

Lemma toplev_bound cl T : okT cl T -> 0 <= toplev T <= Z.of_nat (length T).
Proof.
  induction T as [|(v, x) T IH]; [simpl; lia|]. intros (H & HT). specialize (IH HT).
  destruct H as (_ & _ & _ & _ & _ & H6). cbn [toplev length].
  destruct (nreason x); [destruct H6 as (H6 & _)|]; lia.
Qed.

Lemma lev_bound cl T e : okT cl T -> In e T -> 0 <= nlev (snd e) <= toplev T.
Proof.
  induction T as [|(v, x) T IH]; [simpl; tauto|]. intros (H & HT) [<-|Hi].
  - cbn [toplev snd]. pose proof (toplev_bound cl T HT). destruct H as (_ & _ & _ & _ & _ & H6).
    destruct (nreason x); [destruct H6 as (H6 & _)|]; lia.
  - specialize (IH HT Hi). destruct H as (_ & _ & _ & _ & _ & H6). cbn [toplev].
    destruct (nreason x); [destruct H6 as (H6 & _)|]; lia.
Qed.

Lemma D_nonempty cl T v : okT cl T -> (exists i, inn i (F v)) -> exists i, inn i (D T v).
Proof.
  intros H HF. induction T as [|(u, x) T IH]; auto. destruct H as (H & HT).
  destruct (Z.eq_dec u v) as [->|N].
  - destruct H as (_ & _ & _ & _ & (i & H5 & H6) & _). exists i. apply D_cons. auto.
  - rewrite D_other by auto. auto.
Qed.

Lemma not_both cl T l : okT cl T -> (exists i, inn i (F (fst l))) -> trueL T l -> falseL T l -> False.
Proof.
  intros H HF Ht Hf. destruct (D_nonempty cl T (fst l) H HF) as (i & Hi).
  apply (Hf i); auto.
Qed.

(** ** Cuts *)

Lemma cut_split cl k T : okT cl T ->
  exists T1, T = T1 ++ cut k T /\ forall e, In e T1 -> k < nlev (snd e).
Proof.
  induction T as [|(v, x) T IH].
  - intros _. exists []. split; auto. intros e [].
  - intro HH. pose proof HH as (H & HT). destruct (IH HT) as (T1 & E & G). unfold cut. cbn [filter snd].
    destruct (Z.leb_spec (nlev x) k) as [L|L].
    + exists []. split; [|intros e []]. simpl. f_equal.
      destruct T1 as [|e T1]; [exact E|]. exfalso.
      assert (He : k < nlev (snd e)) by (apply G; left; auto).
      assert (HIn : In e ((v, x) :: T)) by (right; rewrite E; left; auto).
      pose proof (lev_bound cl _ e HH HIn) as B. cbn [toplev] in B. lia.
    + exists ((v, x) :: T1). split.
      * simpl. f_equal. exact E.
      * intros e [<-|Hi]; auto.
Qed.

Lemma cut_ok cl k T : okT cl T -> okT cl (cut k T).
Proof.
  intro H. destruct (cut_split cl k T H) as (T1 & E & _). rewrite E in H. eapply okT_app; eauto.
Qed.

Lemma cut_cut j k T : j <= k -> cut j (cut k T) = cut j T.
Proof.
  intro L. unfold cut. induction T as [|e T IH]; auto. cbn [filter].
  destruct (Z.leb_spec (nlev (snd e)) k); cbn [filter]; destruct (Z.leb_spec (nlev (snd e)) j); try lia;
    rewrite ?IH; auto.
Qed.

Lemma cut_all cl k T : okT cl T -> toplev T <= k -> cut k T = T.
Proof.
  intros H L. destruct (cut_split cl k T H) as (T1 & E & G).
  destruct T1 as [|e T1]; [simpl in E; congruence|]. exfalso.
  assert (He : k < nlev (snd e)) by (apply G; left; auto).
  pose proof (lev_bound cl T e H) as B. rewrite E in B at 1. specialize (B (or_introl eq_refl)). lia.
Qed.

Lemma cut_cons k v x T : k < nlev x -> cut k ((v, x) :: T) = cut k T.
Proof. intro L. unfold cut. cbn [filter snd]. destruct (Z.leb_spec (nlev x) k); auto; lia. Qed.

Lemma false_cut cl j k T l : okT cl T -> j <= k -> falseL (cut j T) l -> falseL (cut k T) l.
Proof.
  intros H L Hf. rewrite <- (cut_cut j k T L) in Hf.
  destruct (cut_split cl j (cut k T) (cut_ok cl k T H)) as (T1 & E & _). rewrite E. apply false_app; auto.
Qed.

Lemma true_cut cl j k T l : okT cl T -> j <= k -> trueL (cut j T) l -> trueL (cut k T) l.
Proof.
  intros H L Hf. rewrite <- (cut_cut j k T L) in Hf.
  destruct (cut_split cl j (cut k T) (cut_ok cl k T H)) as (T1 & E & _). rewrite E. apply true_app; auto.
Qed.

Lemma false_cut_T cl k T l : okT cl T -> falseL (cut k T) l -> falseL T l.
Proof.
  intros H Hf. destruct (cut_split cl k T H) as (T1 & E & _). rewrite E. apply false_app; auto.
Qed.

Lemma true_cut_T cl k T l : okT cl T -> trueL (cut k T) l -> trueL T l.
Proof.
  intros H Hf. destruct (cut_split cl k T H) as (T1 & E & _). rewrite E. apply true_app; auto.
Qed.

Lemma cut_toplev cl k T e : okT cl T -> In e T -> nlev (snd e) = k -> toplev (cut k T) = k.
Proof.
  intros H Hi Hk. pose proof (cut_ok cl k T H) as Hc.
  assert (Hi' : In e (cut k T)) by (apply filter_In; split; auto; apply Z.leb_le; lia).
  pose proof (lev_bound cl _ e Hc Hi') as B1.
  destruct (cut k T) as [|(u, y) T'] eqn:E; [destruct Hi'|]. cbn [toplev] in *.
  assert (Hy : In (u, y) (cut k T)) by (rewrite E; left; auto).
  apply filter_In in Hy. destruct Hy as (_ & Hy). apply Z.leb_le in Hy. cbn [snd] in Hy. lia.
Qed.

(** ** The node that falsified a literal *)

Definition nodeL (T : trail) (l : blit) : node := bfind_node (proj (fst l) T) (snd l).

Lemma proj_cons v u x T : proj v ((u, x) :: T) = if u =? v then x :: proj v T else proj v T.
Proof. unfold proj. cbn [filter fst]. destruct (u =? v); auto. Qed.

Lemma node_spec cl T l : okT cl T -> falseL T l -> snd l <> 0 -> (forall i, inn i (snd l) -> inn i (F (fst l))) ->
  exists T1 T2, T = T1 ++ (fst l, nodeL T l) :: T2 /\
    falseL ((fst l, nodeL T l) :: T2) l /\ ~ falseL T2 l.
Proof.
  intros H Hf Hz HF. destruct l as (v, m). cbn [fst snd] in *. unfold nodeL. cbn [fst snd].
  induction T as [|(u, y) T IH].
  - exfalso. destruct (nonzero_inn m Hz) as (i & Hi). apply (Hf i); cbn [fst snd]; auto.
  - destruct H as (HN & HT). rewrite proj_cons. destruct (Z.eqb_spec u v) as [->|N].
    + cbn [bfind_node]. destruct (Z.eqb_spec (Z.land (nvals y) m) 0) as [E|E].
      * rewrite land_zero in E.
        destruct IH as (T1 & T2 & E1 & E2 & E3); auto.
        { intros i Hi HD. apply (Hf i Hi). apply D_cons. split; auto. intros _ Hy. apply (E i); auto. }
        exists ((v, y) :: T1), T2. split; [|auto]. simpl. f_equal. exact E1.
      * exists [], T. split; auto. split; auto. intro Hf2.
        destruct (nonzero_inn _ E) as (i & Hi). apply inn_land in Hi. destruct Hi as (Hi1 & Hi2).
        apply (Hf2 i Hi2). destruct HN as (_ & _ & _ & H4 & _). apply H4; auto.
    + destruct IH as (T1 & T2 & E1 & E2 & E3); auto.
      { apply (false_other T u y (v, m)) in Hf; auto. }
      exists ((u, y) :: T1), T2. split; [|auto]. simpl. f_equal. exact E1.
Qed.

Lemma okT_split cl S T1 T v x : S = T1 ++ (v, x) :: T -> okT cl S -> okN cl T v x.
Proof. intros -> H. apply okT_app in H. apply H. Qed.

(** The index of the node tells from which suffix on the literal is false. *)
Lemma node_suffix cl T l T0 S : okT cl T -> falseL T l -> snd l <> 0 ->
  (forall i, inn i (snd l) -> inn i (F (fst l))) -> T = T0 ++ S ->
  falseL S l <-> nidx (nodeL T l) <= Z.of_nat (length S).
Proof.
  intros H Hf Hz HF ES. destruct (node_spec cl T l H Hf Hz HF) as (T1 & T2 & E & E1 & E2).
  pose proof (okT_split _ _ _ _ _ _ E H) as (_ & HI & _). rewrite HI.
  split.
  - intro Hs. destruct (Nat.le_gt_cases (length S) (length T2)) as [L|L]; [|lia]. exfalso.
    rewrite E in ES. change (T1 ++ (fst l, nodeL T l) :: T2) with (T1 ++ [(fst l, nodeL T l)] ++ T2) in ES.
    rewrite app_assoc in ES. symmetry in ES. destruct (suffix_cmp _ _ _ _ ES L) as (q & -> & _).
    apply E2. apply false_app; auto.
  - intro L. assert (L' : (length ((fst l, nodeL T l) :: T2) <= length S)%nat) by (simpl; lia).
    assert (E' : T1 ++ (fst l, nodeL T l) :: T2 = T0 ++ S) by congruence.
    destruct (suffix_cmp _ _ _ _ E' L') as (q & -> & _). apply false_app; auto.
Qed.

Lemma node_cut cl T l k : okT cl T -> falseL T l -> snd l <> 0 ->
  (forall i, inn i (snd l) -> inn i (F (fst l))) ->
  falseL (cut k T) l <-> nlev (nodeL T l) <= k.
Proof.
  intros H Hf Hz HF. destruct (node_spec cl T l H Hf Hz HF) as (T1 & T2 & E & E1 & E2).
  destruct (cut_split cl k T H) as (T0 & ET & G).
  split.
  - intro Hc. destruct (Nat.le_gt_cases (length (cut k T)) (length T2)) as [L|L].
    + exfalso. rewrite E in ET at 1. change (T1 ++ (fst l, nodeL T l) :: T2) with (T1 ++ [(fst l, nodeL T l)] ++ T2) in ET.
      rewrite app_assoc in ET. symmetry in ET. destruct (suffix_cmp _ _ _ _ ET L) as (q & Eq & _).
      apply E2. rewrite Eq. apply false_app; auto.
    + assert (L' : (length ((fst l, nodeL T l) :: T2) <= length (cut k T))%nat) by (simpl; lia).
      rewrite E in ET at 1. destruct (suffix_cmp _ _ _ _ ET L') as (q & Eq & _).
      assert (Hi : In (fst l, nodeL T l) (cut k T)) by (rewrite Eq; apply in_or_app; right; left; auto).
      apply filter_In in Hi. destruct Hi as (_ & Hi). apply Z.leb_le in Hi. exact Hi.
  - intro Lk. destruct (Nat.le_gt_cases (length ((fst l, nodeL T l) :: T2)) (length (cut k T))) as [L|L].
    + rewrite E in ET at 1. destruct (suffix_cmp _ _ _ _ ET L) as (q & Eq & _). rewrite Eq. apply false_app; auto.
    + exfalso. rewrite E in ET at 1. symmetry in ET.
      destruct (suffix_cmp _ _ _ _ ET ltac:(simpl in *; lia)) as (q & Eq & Eq1).
      destruct q as [|e q].
      * simpl in Eq. rewrite <- Eq in L. simpl in L. lia.
      * injection Eq as E0 _. assert (Hi : In e T0) by (rewrite Eq1; apply in_or_app; right; left; auto).
        specialize (G e Hi). subst e. cbn [snd] in G. lia.
Qed.

(** Literals of different variables have different indices. *)
Lemma node_distinct cl T l l' : okT cl T ->
  falseL T l -> snd l <> 0 -> (forall i, inn i (snd l) -> inn i (F (fst l))) ->
  falseL T l' -> snd l' <> 0 -> (forall i, inn i (snd l') -> inn i (F (fst l'))) ->
  nidx (nodeL T l) = nidx (nodeL T l') -> fst l = fst l'.
Proof.
  intros H Hf Hz HF Hf' Hz' HF' EI.
  destruct (node_spec cl T l H Hf Hz HF) as (T1 & T2 & E & _).
  destruct (node_spec cl T l' H Hf' Hz' HF') as (T1' & T2' & E' & _).
  pose proof (okT_split _ _ _ _ _ _ E H) as (_ & HI & _).
  pose proof (okT_split _ _ _ _ _ _ E' H) as (_ & HI' & _).
  assert (L : length T2 = length T2') by lia.
  rewrite E in E'. destruct (suffix_cmp _ _ _ _ E') as (q & Eq & _); [simpl; lia|].
  destruct q as [|e q].
  - injection Eq as Eq _ _. congruence.
  - apply (f_equal (@length _)) in Eq. simpl in Eq. rewrite app_length in Eq. simpl in Eq. lia.
Qed.

Lemma node_idx_pos cl T l : okT cl T -> falseL T l -> snd l <> 0 ->
  (forall i, inn i (snd l) -> inn i (F (fst l))) -> 1 <= nidx (nodeL T l) <= Z.of_nat (length T).
Proof.
  intros H Hf Hz HF. destruct (node_spec cl T l H Hf Hz HF) as (T1 & T2 & E & _).
  pose proof (okT_split _ _ _ _ _ _ E H) as (_ & HI & _).
  rewrite HI. apply (f_equal (@length _)) in E. rewrite app_length in E. simpl in E. lia.
Qed.

End Trails.
