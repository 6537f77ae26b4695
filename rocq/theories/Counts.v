(** * The occurrence counts of the bookkeeping heuristic are exact *)

From Coq Require Import Floats.SpecFloat.
From Verif Require Import Spec Outcome State ModelCounter ModelHeur ModelLearn ModelWatch
  ModelSearch ModelBuild Base Trail Reduce Counter CounterUndo Propagate Choose Scores Chrono
  Init Analyze Learn Cdcl Nc Wl Fuel.

(** ** Sums *)

Fixpoint nsum (f : nat -> nat) (n : nat) : nat :=
  match n with
  | O => O
  | S m => (nsum f m + f m)%nat
  end.

Lemma nsum_ext f g n : (forall i, (i < n)%nat -> f i = g i) -> nsum f n = nsum g n.
Proof.
  induction n as [|n IH]; intro H; auto. simpl. rewrite IH by (intros; apply H; lia).
  rewrite H by lia. auto.
Qed.

Lemma nsum_zero f n : (forall i, (i < n)%nat -> f i = 0%nat) -> nsum f n = 0%nat.
Proof. induction n as [|n IH]; intro H; auto. simpl. rewrite IH by (intros; apply H; lia). rewrite H; lia. Qed.

Lemma nsum_plus f g n : nsum (fun i => (f i + g i)%nat) n = (nsum f n + nsum g n)%nat.
Proof. induction n as [|n IH]; simpl; auto. rewrite IH. lia. Qed.

Lemma nsum_one f g m n : (m < n)%nat -> (forall i, i <> m -> f i = g i) ->
  (nsum f n + g m = nsum g n + f m)%nat.
Proof.
  induction n as [|n IH]; intros L H; [lia|]. simpl.
  destruct (Nat.eq_dec m n) as [->|N].
  - rewrite (nsum_ext f g n) by (intros; apply H; lia). lia.
  - specialize (IH ltac:(lia) H). rewrite (H n) by lia. lia.
Qed.

Lemma countb_nsum (f : nat -> bool) L n : (forall x, In x L -> (x < n)%nat) ->
  countb f L = nsum (fun i => if f i then nocc i L else 0%nat) n.
Proof.
  induction L as [|x L IH]; intro H.
  - symmetry. apply nsum_zero. intros i _. destruct (f i); auto.
  - rewrite countb_cons, IH by (intros; apply H; right; auto).
    rewrite (nsum_ext (fun i => if f i then nocc i (x :: L) else 0%nat)
       (fun i => ((if f i then nocc i L else 0) + (if f i then (if Nat.eqb i x then 1 else 0) else 0))%nat)).
    2: { intros i _. unfold nocc. rewrite countb_cons. destruct (f i); lia. }
    rewrite nsum_plus.
    pose proof (nsum_one (fun i => if f i then (if Nat.eqb i x then 1 else 0) else 0)%nat (fun _ => 0%nat) x n) as O.
    rewrite (nsum_zero (fun _ => 0%nat)), Nat.eqb_refl in O by auto. rewrite Nat.add_0_r in O. rewrite O.
    + simpl. destruct (f x); lia.
    + apply H. left; auto.
    + intros i N. destruct (f i); auto. destruct (Nat.eqb_spec i x); [congruence|auto].
Qed.

(** Occurrences of [l] in the clauses with LEVEL -1. *)
Definition live (cs : list clause) (y : nat -> Z) (l : lit) : nat :=
  nsum (fun i => if y i =? -1 then occ l (nth i cs []) else 0%nat) (length cs).

Lemma live_off cs y n C a l : nth_error cs n = Some C -> y n = -1 -> a <> -1 ->
  (live cs (updn y n a) l + occ l C = live cs y l)%nat.
Proof.
  intros Hn Y A. unfold live. pose proof (nth_error_lt _ _ _ Hn) as L.
  pose proof (nsum_one (fun i => if updn y n a i =? -1 then occ l (nth i cs []) else 0%nat)
    (fun i => if y i =? -1 then occ l (nth i cs []) else 0%nat) n (length cs) L) as O.
  simpl in O. rewrite updn_same, Y in O. rewrite (nth_error_nth _ _ _ Hn) in O.
  destruct (Z.eqb_spec a (-1)); [congruence|]. simpl in O.
  lapply O; [lia|]. intros i N. rewrite updn_other; auto.
Qed.

Lemma live_on cs y n C l : nth_error cs n = Some C -> y n <> -1 ->
  live cs (updn y n (-1)) l = (live cs y l + occ l C)%nat.
Proof.
  intros Hn Y. unfold live. pose proof (nth_error_lt _ _ _ Hn) as L.
  pose proof (nsum_one (fun i => if updn y n (-1) i =? -1 then occ l (nth i cs []) else 0%nat)
    (fun i => if y i =? -1 then occ l (nth i cs []) else 0%nat) n (length cs) L) as O.
  simpl in O. rewrite updn_same in O. rewrite (nth_error_nth _ _ _ Hn) in O.
  destruct (Z.eqb_spec (y n) (-1)); [congruence|]. simpl in O.
  lapply O; [lia|]. intros i N. rewrite updn_other; auto.
Qed.

Lemma live_snoc cs y C l : live (cs ++ [C]) (updn y (length cs) (-1)) l = (live cs y l + occ l C)%nat.
Proof.
  unfold live. rewrite app_length. simpl. rewrite Nat.add_1_r. simpl. rewrite updn_same. simpl.
  rewrite app_nth2, Nat.sub_diag by lia. simpl. f_equal. apply nsum_ext. intros i Hi.
  rewrite updn_other by lia. rewrite app_nth1 by lia. auto.
Qed.

Lemma live_zero cs y l : (forall n C, nth_error cs n = Some C -> y n = -1 -> ~ In l C) -> live cs y l = 0%nat.
Proof.
  intro H. apply nsum_zero. intros i Hi. destruct (Z.eqb_spec (y i) (-1)) as [E|]; auto.
  destruct (lt_nth_error cs i Hi) as (C & HC). rewrite (nth_error_nth _ _ _ HC).
  specialize (H i C HC E). rewrite <- occ_pos in H. lia.
Qed.

(** The counts are those of the clauses not yet satisfied; assigned atoms have count 0. *)
Definition CNT (s : state) : Prop :=
  forall l, cnt s l = if lit_un (tr s) l then Z.of_nat (live (cl s) (clev s) l) else 0.

(** ** Partial correctness rules *)

Lemma foldM_pind {A B} (f : B -> A -> outcome B) (P : list A -> B -> Prop) l b b' :
  foldM f l b = Ok b' -> P [] b ->
  (forall pre x suf b1 b2, l = pre ++ x :: suf -> P pre b1 -> f b1 x = Ok b2 -> P (pre ++ [x]) b2) -> P l b'.
Proof.
  intros E H0 HS.
  assert (G : forall suf pre b1, l = pre ++ suf -> P pre b1 -> foldM f suf b1 = Ok b' -> P l b').
  { induction suf as [|x suf IH]; intros pre b1 El HP F.
    - simpl in F. injection F as <-. rewrite El, app_nil_r. auto.
    - simpl in F. apply bind_ok in F. destruct F as (b2 & F1 & F2).
      apply (IH (pre ++ [x]) b2); auto.
      + rewrite El, <- app_assoc. auto.
      + eapply HS; eauto. }
  apply (G l [] b); auto.
Qed.

Section Bk.
Variable c : cfg.
Hypothesis BKc : is_bk c = true.

Lemma dec_cnt C : forall s s', foldM dec_count C s = Ok s' ->
  exists z, s' = set_cnt s z /\ forall l, z l = cnt s l - (if lit_un (tr s) l then Z.of_nat (occ l C) else 0).
Proof.
  induction C as [|x C IH]; intros s s' E; simpl in E.
  - injection E as <-. exists (cnt s). split; [destruct s; auto|]. intro l. unfold occ, countb; simpl.
    destruct (lit_un (tr s) l); lia.
  - apply bind_ok in E. destruct E as (s1 & E1 & E2). unfold dec_count in E1.
    apply bind_ok in E1. destruct E1 as (u & _ & E1). injection E1 as E1.
    destruct (IH _ _ E2) as (z & Ez & P). exists z. rewrite <- E1 in *. clear E1.
    destruct (lit_un (tr s) x) eqn:U.
    + split; [rewrite Ez; reflexivity|]. intro l. rewrite P. simpl. unfold occ. rewrite countb_cons. unfold updl.
      destruct (lit_eqb_spec l x) as [->|N]; [rewrite U; lia|]. destruct (lit_un (tr s) l); lia.
    + split; [rewrite Ez; reflexivity|]. intro l. rewrite P. unfold occ. rewrite countb_cons.
      destruct (lit_un (tr s) l) eqn:Ul; auto. destruct (lit_eqb_spec l x) as [->|N]; [congruence|]. lia.
Qed.

Definition CL (L : Z) (s : state) : Prop := CNT s /\ level s = L.

Lemma satisfy_cnt L s l s' : L <> -1 -> CL L s -> satisfy_clauses c s l = Ok s' -> CL L s'.
Proof.
  intros HL H E. unfold satisfy_clauses in E. apply bind_ok in E. destruct E as (_ & _ & E).
  apply (foldM_pind _ (fun _ s => CL L s)) in E; auto. intros ? n ? s1 s2 _ H1 E1. clear s s' H E. rename s1 into s, s2 into s', E1 into E. destruct H1 as (H & Lv).
  unfold satisfy_step in E. apply bind_ok in E. destruct E as (C & HC & E).
  unfold getcl in HC. destruct (nth_error (cl s) n) as [C'|] eqn:Hn; [|discriminate]. injection HC as ->.
  destruct (Z.eqb_spec (clev s n) (-1)) as [Y|Y]; [|injection E as <-; split; auto].
  rewrite BKc in E. apply dec_cnt in E. destruct E as (z & -> & P). split; auto.
  intro x. simpl. rewrite P. simpl. rewrite H.
  pose proof (live_off (cl s) (clev s) n C (level s) x Hn Y ltac:(lia)) as O.
  destruct (lit_un (tr s) x); lia.
Qed.

Lemma remove_cnt L s l s' : CL L s -> remove_literal s l = Ok s' -> CL L s'.
Proof.
  intros H E. unfold remove_literal in E. apply bind_ok in E. destruct E as (_ & _ & E).
  apply (foldM_pind _ (fun _ s => CL L s)) in E; auto. intros ? n ? s1 s2 _ H1 E1. clear s s' H E. rename s1 into s, s2 into s', E1 into E. destruct H1 as (H & Lv).
  unfold remove_step in E. apply bind_ok in E. destruct E as (C & _ & E).
  destruct (clev s n =? -1); injection E as <-; [|split; auto].
  simpl. destruct (num s n - 1 =? 1), (num s n - 1 =? 0); split; auto.
Qed.

Lemma mark_cnt L s v d a : a <> Un -> CL L s -> CL L (mark c s v d a).
Proof.
  intros Ha (H & Lv). unfold mark. rewrite BKc. split; auto. intro l. simpl.
  unfold lit_un. simpl. unfold updl. destruct (lit_eqb_spec l (mkLit v d false)) as [->|N1].
  { simpl. rewrite upd2_same. destruct a; auto; congruence. }
  destruct (lit_eqb_spec l (mkLit v d true)) as [->|N2].
  { simpl. rewrite upd2_same. destruct a; auto; congruence. }
  rewrite upd2_other.
  - apply H.
  - destruct (Z.eq_dec (lvar l) v) as [E1|]; auto. destruct (Z.eq_dec (lval l) d) as [E2|]; auto.
    exfalso. destruct l as [v' d' e]. simpl in *. subst. destruct e; congruence.
Qed.

Lemma assign_cnt L s v d a s' : L <> -1 -> a <> Un -> CL L s -> assign_atom c s v d a = Ok s' -> CL L s'.
Proof.
  intros HL Ha H E. unfold assign_atom in E. apply bind_ok in E. destruct E as (s1 & E1 & E2).
  eapply remove_cnt; [|exact E2]. eapply satisfy_cnt; [exact HL| |exact E1]. apply mark_cnt; auto.
Qed.

Lemma exclude_cnt L s v js s' : L <> -1 -> CL L s -> foldM (exclude c v) js s = Ok s' -> CL L s'.
Proof.
  intros HL H E. apply (foldM_pind _ (fun _ s => CL L s)) in E; auto.
  intros ? n ? s1 s2 _ H1 E1. clear s s' H E. rename s1 into s, s2 into s', E1 into E, H1 into H. unfold exclude in E.
  destruct (conflict s); [injection E as <-; auto|].
  destruct (ASG (tr s) v n); try (injection E as <-; exact H).
  eapply assign_cnt; [exact HL| |exact H|exact E]. congruence.
Qed.

Lemma pos_cnt L s v d s' : L <> -1 -> CL L s -> reduce_pos c s v d = Ok s' -> CL L s'.
Proof.
  intros HL H E. unfold reduce_pos in E. apply bind_ok in E. destruct E as (_ & _ & E).
  apply bind_ok in E. destruct E as (s1 & E1 & E). apply bind_ok in E. destruct E as (s2 & E2 & E).
  eapply exclude_cnt; [exact HL| |exact E]. eapply exclude_cnt; [exact HL| |exact E2].
  eapply (assign_cnt L (push_dst s (mkLit v d true)) v d Pos); [exact HL|congruence| |exact E1]. exact H.
Qed.

Lemma neg_cnt L s v d s' : L <> -1 -> CL L s -> reduce_neg c s v d = Ok s' -> CL L s'.
Proof.
  intros HL H E. unfold reduce_neg in E. apply bind_ok in E. destruct E as (_ & _ & E).
  apply bind_ok in E. destruct E as (s1 & E1 & E).
  assert (H1 : CL L s1).
  { eapply (assign_cnt L (push_dst s (mkLit v d false)) v d Neg); [exact HL|congruence| |exact E1]. exact H. }
  destruct (check_entail (tr s1) v); [|injection E as <-; auto].
  eapply pos_cnt; [exact HL| |exact E]. exact H1.
Qed.

Lemma reduce_cnt s l s' : 0 <= level s -> CNT s -> reduce_theory c s l = Ok s' -> CNT s'.
Proof.
  intros HL H E. assert (CL (level s) s') as (X & _); auto. unfold reduce_theory in E.
  destruct (leq l); [eapply pos_cnt|eapply neg_cnt]; try exact E; try split; auto; lia.
Qed.

Lemma up_cnt : forall fuel s s', 0 <= level s -> CNT s -> unit_propagation fuel c s = Ok s' -> CNT s'.
Proof.
  intros fuel s s' HL H. assert (CL (level s) s) as H' by (split; auto). clear H.
  revert H' HL. generalize (level s) as L. revert s.
  induction fuel as [|fuel IH]; intros s L H HL E; [discriminate|].
  cbn [unit_propagation] in E. destruct (conflict s); [injection E as <-; apply H|].
  destruct (ulist s) as [|n rest]; [injection E as <-; apply H|].
  apply bind_ok in E. destruct E as (C & _ & E).
  destruct (clev (set_ulist (set_uclause s (RCls n)) rest) n =? -1).
  - apply bind_ok in E. destruct E as ([l|] & _ & E).
    + apply bind_ok in E. destruct E as (s1 & E1 & E). apply (IH s1 L); auto.
      unfold reduce_theory in E1.
      destruct (leq l); [eapply pos_cnt|eapply neg_cnt]; try exact E1; try exact H; lia.
    + eapply (IH _ L); [| |exact E]; auto.
  - eapply (IH _ L); [| |exact E]; auto.
Qed.

(** ** Learning and undoing *)

Lemma learnt_cnt s C a b s' :
  CNT s -> (forall l, In l C -> lit_un (tr s) l = false) -> learnt c s C a b s' -> CNT s'.
Proof.
  intros H F Le l. rewrite (le_cnt _ _ _ _ _ _ Le), (le_tr _ _ _ _ _ _ Le), (le_cl _ _ _ _ _ _ Le),
    (le_clev _ _ _ _ _ _ Le), live_snoc, H.
  destruct (lit_un (tr s) l) eqn:U; auto.
  assert (O : occ l C = 0%nat).
  { destruct (Nat.eq_dec (occ l C) 0) as [|N]; auto. exfalso.
    assert (I : In l C) by (apply occ_pos; lia). rewrite (F l I) in U. discriminate. }
  lia.
Qed.

Lemma add_cnt s l s' : add_literal c s l = Ok s' ->
  exists x z, s' = set_cnt (set_num s x) z /\
    forall m, z m = cnt s m + if lit_eqb m l then Z.of_nat (countb (fun n => clev s n =? -1) (rec s l)) else 0.
Proof.
  intro E. unfold add_literal in E. apply bind_ok in E. destruct E as (_ & _ & E).
  apply (foldM_pind _ (fun pre s' => exists x z, s' = set_cnt (set_num s x) z /\
    forall m, z m = cnt s m + if lit_eqb m l then Z.of_nat (countb (fun n => clev s n =? -1) pre) else 0)) in E; auto.
  - exists (num s), (cnt s). split; [destruct s; auto|]. intro m. change (countb (fun n => clev s n =? -1) []) with 0%nat.
    destruct (lit_eqb m l); lia.
  - intros pre n suf s1 s2 _ (x & z & -> & P) E2. unfold add_step in E2.
    apply bind_ok in E2. destruct E2 as (C & _ & E2). simpl in E2.
    destruct (clev s n =? -1) eqn:Y; injection E2 as <-.
    + rewrite BKc. eexists _, _. split; [reflexivity|]. intro m. rewrite countb_app, countb_cons, Y.
      change (countb (fun n => clev s n =? -1) []) with 0%nat. unfold updl.
      destruct (lit_eqb_spec m l) as [->|N].
      * rewrite P, lit_eqb_refl. lia.
      * rewrite P. destruct (lit_eqb_spec m l); [congruence|lia].
    + exists x, z. split; auto. intro m. rewrite countb_app, countb_cons, Y.
      change (countb (fun n => clev s n =? -1) []) with 0%nat. rewrite P. destruct (lit_eqb m l); lia.
Qed.

Section Undo.
Variables (s : state) (k lev : Z) (ex : Z -> Prop).
Let t := tr s.
Hypothesis HS : SI s.
Hypothesis HC : CI s.
Hypothesis HB : TB t lev ex.
Hypothesis Hk : -1 <= k.
Hypothesis HN : CNT s.

Lemma live_rec l : countb (fun n => clev s n =? -1) (rec s l) = live (cl s) (clev s) l.
Proof.
  rewrite (countb_nsum _ _ (length (cl s))) by apply (si_id _ HS). apply nsum_ext. intros i Hi.
  destruct (clev s i =? -1); auto. destruct (lt_nth_error _ _ Hi) as (C & HCl).
  rewrite (nth_error_nth _ _ _ HCl). apply (si_occ _ HS); auto.
Qed.

Lemma live_true l : lit_true t l = true -> live (cl s) (clev s) l = 0%nat.
Proof.
  intro T. apply live_zero. intros n C Hn Y I.
  destruct (HC n C Hn) as [(_ & C2 & _)|(C1 & _)]; [|lia]. fold t in C2. rewrite (C2 l I) in T. discriminate.
Qed.

Lemma pass1_cnt s' : foldM (undo1 c k) (atoms_from t 1) s = Ok s' ->
  exists x z, s' = set_cnt (set_num s x) z /\
    forall l, z l = if lit_un t l || (inb (atom l) (atoms_from t 1) && (k <? llev t l))
                    then Z.of_nat (live (cl s) (clev s) l) else 0.
Proof.
  intro E.
  apply (foldM_pind _ (fun pre s' => exists x z, s' = set_cnt (set_num s x) z /\
    forall l, z l = if lit_un t l || (inb (atom l) pre && (k <? llev t l))
                    then Z.of_nat (live (cl s) (clev s) l) else 0)) in E; auto.
  - exists (num s), (cnt s). split; [destruct s; auto|]. intro l. rewrite HN. fold t.
    change (inb (atom l) []) with false. rewrite andb_false_l, orb_false_r. auto.
  - intros pre (v, d) suf s1 s2 Ea (x & z & -> & P) E2.
    assert (R : range t v d).
    { apply in_atoms1. rewrite Ea. apply in_or_app; right; left; auto. }
    unfold undo1 in E2. simpl in E2. fold t in E2.
    destruct (k <? ALEV t v d) eqn:K.
    + assert (E3 : add_literal c (set_cnt (set_num s x) z) (flit t v d) = Ok s2).
      { unfold flit. destruct (ASG t v d); exact E2. }
      apply add_cnt in E3. destruct E3 as (x' & z' & -> & P').
      exists x', z'. split; [reflexivity|]. intro m. rewrite P'. simpl. rewrite P.
      change (rec (set_cnt (set_num s x) z) (flit t v d)) with (rec s (flit t v d)).
      rewrite live_rec. rewrite inb_snoc.
      assert (N : ~ In (v, d) pre).
      { pose proof (nodup_atoms t 1) as ND. rewrite Ea in ND. apply NoDup_remove_2 in ND.
        intro I. apply ND. apply in_or_app; auto. }
      assert (AS : ASG t v d <> Un).
      { intro U. rewrite (tb_un _ _ _ HB v d R U) in K. apply Z.ltb_lt in K. lia. }
      destruct (atom_dec (atom m) (v, d)) as [Em|Em].
      * injection Em as Ev Ed.
        assert (Um : lit_un t m = false) by (unfold lit_un; rewrite Ev, Ed; destruct (ASG t v d); congruence).
        assert (Km : (k <? llev t m) = true) by (unfold llev; rewrite Ev, Ed; auto).
        assert (Im : inb (atom m) pre = false).
        { destruct (inb (atom m) pre) eqn:I; auto. apply inb_iff in I. unfold atom in I.
          rewrite Ev, Ed in I. contradiction. }
        rewrite Um, Km, Im. simpl.
        destruct (lit_eqb_spec m (flit t v d)) as [->|Nm]; [lia|].
        rewrite live_true; auto. apply lit_true_asg. rewrite Ev, Ed.
        unfold flit in Nm. rewrite <- (lit_eta m), Ev, Ed in Nm.
        destruct (ASG t v d), (leq m); congruence.
      * rewrite orb_false_r. destruct (lit_eqb_spec m (flit t v d)) as [->|Nm]; [|lia].
        exfalso. apply Em. unfold atom, flit. destruct (ASG t v d); auto.
    + injection E2 as <-. exists x, z. split; auto. intro m. rewrite P, inb_snoc.
      destruct (atom_dec (atom m) (v, d)) as [Em|Em]; [|rewrite orb_false_r; auto].
      injection Em as Ev Ed. unfold llev. rewrite Ev, Ed, K, !andb_false_r. auto.
Qed.

Let fr := free s k.

(** state of the second pass *)
Definition P2 (pre : list (Z * Z)) (s1 : state) : Prop :=
  cl s1 = cl s /\ cutP s k pre (tr s1) /\
  forall l, cnt s1 l = if fr l then Z.of_nat (live (cl s) (clev s1) l) else 0.

Lemma inc_cnt n C : forall s1 s2 pre, cutP s k pre (tr s1) -> foldM (inc_count c k n) C s1 = Ok s2 ->
  exists x z, s2 = set_cnt (set_num s1 x) z /\
    forall l, z l = cnt s1 l + if fr l then Z.of_nat (occ l C) else 0.
Proof.
  induction C as [|y C IH]; intros s1 s2 pre Cu E; simpl in E.
  - injection E as <-. exists (num s1), (cnt s1). split; [destruct s1; auto|]. intro l.
    unfold occ, countb; simpl. destruct (fr l); lia.
  - apply bind_ok in E. destruct E as (s3 & E1 & E2). unfold inc_count in E1.
    apply bind_ok in E1. destruct E1 as (u & _ & E1).
    assert (F : (k <? ALEV (tr s1) (lvar y) (lval y)) || lit_un (tr s1) y = fr y).
    { unfold fr, free, llev, lit_un. fold t. destruct (in_dec atom_dec (lvar y, lval y) pre) as [I|I].
      - destruct (Z.lt_ge_cases k (ALEV t (lvar y) (lval y))) as [K|K].
        + destruct (cp_gone _ _ _ _ Cu _ _ I K) as (A1 & A2 & _). rewrite A1.
          apply Z.ltb_lt in K. rewrite K, orb_true_r. auto.
        + destruct (cp_kept _ _ _ _ Cu (lvar y) (lval y)) as (A1 & A2 & _); auto. rewrite A1, A2. auto.
      - destruct (cp_kept _ _ _ _ Cu (lvar y) (lval y)) as (A1 & A2 & _); auto. rewrite A1, A2. auto. }
    rewrite F in E1. destruct (fr y) eqn:Fy; injection E1 as <-.
    + rewrite BKc in E2. match type of E2 with foldM _ _ ?z = _ => assert (Cu' : cutP s k pre (tr z)) by exact Cu end.
      destruct (IH _ _ pre Cu' E2) as (x & z & -> & P). eexists _, z. split; [reflexivity|].
      intro l. rewrite P. simpl. unfold occ. rewrite countb_cons. unfold updl.
      destruct (lit_eqb_spec l y) as [->|N]; [rewrite Fy; lia|]. destruct (fr l); lia.
    + destruct (IH _ _ pre Cu E2) as (x & z & -> & P). exists x, z. split; auto.
      intro l. rewrite P. unfold occ. rewrite countb_cons.
      destruct (fr l) eqn:Fl; auto. destruct (lit_eqb_spec l y) as [->|N]; [congruence|]. lia.
Qed.

Lemma unsat_cnt pre s1 l s2 : P2 pre s1 -> unsatisfy_clauses c k s1 l = Ok s2 ->
  P2 pre s2 /\ tr s2 = tr s1.
Proof.
  intros H E. unfold unsatisfy_clauses in E. apply bind_ok in E. destruct E as (_ & _ & E).
  apply (foldM_pind _ (fun _ s' => P2 pre s' /\ tr s' = tr s1)) in E; auto.
  intros ? n ? s3 s4 _ H3 E3. clear s2 E.
  rename s3 into s2, s4 into s3, E3 into E. destruct H3 as ((A1 & A2 & A3) & T).
  unfold unsat_step in E. apply bind_ok in E. destruct E as (C & HCn & E).
  unfold getcl in HCn. destruct (nth_error (cl s2) n) as [C'|] eqn:Hn; [|discriminate]. injection HCn as ->.
  destruct (Z.ltb_spec k (clev s2 n)) as [K|K]; [|injection E as <-; split; auto; split; auto].
  apply bind_ok in E. destruct E as (s4 & E4 & E5). injection E5 as <-.
  destruct (inc_cnt n C s2 s4 pre A2 E4) as (x & z & -> & P). split; auto. split; auto. split; auto.
  intro m. simpl. rewrite P, A3. rewrite A1 in Hn.
  rewrite (live_on (cl s) (clev s2) n C m Hn) by lia. destruct (fr m); lia.
Qed.

Lemma pass2_cnt s1 s2 : P2 [] s1 -> foldM (undo2 c k) (atoms_from t 1) s1 = Ok s2 -> P2 (atoms_from t 1) s2.
Proof.
  intros H E. apply (foldM_pind _ P2) in E; auto. intros pre (v, d) suf s3 s4 Ea H3 E3.
  clear s1 s2 H E. rename s3 into s1, s4 into s2, H3 into H, E3 into E.
  assert (N : ~ In (v, d) pre).
  { pose proof (nodup_atoms t 1) as ND. rewrite Ea in ND. apply NoDup_remove_2 in ND.
    intro I. apply ND. apply in_or_app; auto. }
  destruct H as (A1 & A2 & A3). destruct (cp_kept _ _ _ _ A2 v d) as (B1 & B2 & _); auto. fold t in B1, B2.
  unfold undo2 in E. rewrite B2 in E. destruct (Z.ltb_spec k (ALEV t v d)) as [K|K].
  - apply bind_ok in E. destruct E as (s3 & E3 & E4). injection E4 as <-.
    assert (E5 : exists l, unsatisfy_clauses c k s1 l = Ok s3).
    { destruct (ASG (tr s1) v d); eauto. }
    destruct E5 as (l & E5). destruct (unsat_cnt pre s1 l s3) as ((C1 & C2 & C3) & T); [split; auto|auto|].
    split; auto. split; [|exact C3]. unfold unmark. simpl. apply cutP_unmark; auto.
  - injection E as <-. split; auto. split; auto. apply cutP_skip; auto.
Qed.

Lemma undo_cnt s' : undo_theory c s k = Ok s' -> CNT s'.
Proof.
  intro E. unfold undo_theory in E. apply bind_ok in E. destruct E as (s1 & E1 & E).
  apply bind_ok in E. destruct E as (s2 & E2 & E).
  destruct (pass1_cnt s1 E1) as (x & z & -> & P).
  assert (ZR : forall l m, ~ lrange t l -> live (cl s) m l = 0%nat).
  { intros l m NR. apply live_zero. intros n C Hn _ I. apply NR. apply (si_ok _ HS C); auto.
    eapply nth_error_In; eauto. }
  assert (RD : forall l, lrange t l \/ ~ lrange t l).
  { intro l. unfold lrange, range. lia. }
  assert (H : P2 [] (set_cnt (set_num s x) z)).
  { split; auto. split; [exact (cutP_nil s k)|]. intro l. simpl. rewrite P. unfold fr, free. fold t.
    destruct (RD l) as [R|R].
    - replace (inb (atom l) (atoms_from t 1)) with true by (symmetry; apply inb_iff; apply in_atoms1; auto).
      rewrite orb_comm. auto.
    - rewrite ZR by auto.
      destruct (lit_un t l || inb (atom l) (atoms_from t 1) && (k <? llev t l)), ((k <? llev t l) || lit_un t l); auto. }
  change (atoms_from (tr (set_cnt (set_num s x) z)) 1) with (atoms_from t 1) in E2.
  destruct (pass2_cnt _ _ H E2) as (A1 & A2 & A3).
  unfold prune_dst in E. destruct (forallb (lit_ok (tr s2)) (DST (tr s2))); [|discriminate]. injection E as <-.
  intro l. simpl. rewrite A3, A1. destruct (RD l) as [R|R].
  - replace (lit_un _ l) with (fr l); auto. unfold fr, free. fold t. unfold lit_un. simpl.
    assert (I : In (lvar l, lval l) (atoms_from t 1)) by (apply in_atoms1; auto).
    destruct (Z.ltb_spec k (llev t l)) as [K|K].
    + destruct (cp_gone _ _ _ _ A2 _ _ I K) as (-> & _). auto.
    + destruct (cp_kept _ _ _ _ A2 (lvar l) (lval l)) as (-> & _); auto.
  - rewrite ZR by auto. destruct (fr l), (lit_un _ l); auto.
Qed.

End Undo.

(** ** The search procedures *)

Lemma start_CNT p t s : start_trail p t -> built c t (clauses p) s -> CNT s.
Proof.
  intros ST B l. rewrite (bu_tr _ _ _ _ B), (start_un p t l ST), (bu_cnt _ _ _ _ B BKc), (bu_cl _ _ _ _ B).
  f_equal. unfold live.
  rewrite (nsum_ext _ (fun i => occ l (nth i (clauses p) []))).
  2: { intros i _. rewrite (bu_clev _ _ _ _ B). auto. }
  generalize (clauses p) as cs. induction cs as [|C cs IH] using rev_ind; auto.
  rewrite app_length. simpl. rewrite Nat.add_1_r. simpl. rewrite app_nth2, Nat.sub_diag by lia. simpl.
  rewrite (nsum_ext _ (fun i => occ l (nth i cs []))) by (intros; rewrite app_nth1; auto). rewrite <- IH.
  apply occs_snoc.
Qed.

Lemma nc_conflict_cnt fuel r rc s s' rc' :
  watch c = false -> lenient c = true -> CS s -> TR (tr s) (cl s) ->
  (forall D, In D (cl s) -> NoDup D) -> conflict s = true -> 1 <= level s ->
  CNT s -> nc_conflict fuel c r rc s = Ok (s', rc') -> CNT s'.
Proof.
  intros W Le H HT ND Cf HL HN E.
  destruct (conflict_false s H Cf) as (D & HD & FD).
  assert (HB : TB (tr s) (level s) (fun _ => True)).
  { eapply TB_weaken; [apply (cs_TB _ H)|auto]. }
  assert (D0 : DOM (tr s) 0 = 0) by apply HB.
  assert (InD : In D (cl s)) by (eapply nth_error_In; eauto).
  destruct (conflict_an (tr s) (level s) (fun _ => True) (cl s) D) as (A0 & E0 & T0); auto.
  { apply (cs_clo _ H). } { apply (si_ok _ (CS_si _ H)). }
  destruct (analyze_ok (tr s) (cl s) (level s) (fun _ => True) HB (cs_TD _ H) HT (si_ok _ (CS_si _ H)) HL
              c s D (w0 s (confcl s)) (w1 s (confcl s)) false D0 eq_refl eq_refl eq_refl A0 E0)
    as (N & C & a & b & AE & A & EN & O & _); auto; [congruence|].
  destruct (learn_clause_ok c s C a b Le D0) as (s1 & E1 & L1); [apply (an_range _ _ _ A)|congruence|].
  assert (T1 := le_tr _ _ _ _ _ _ L1).
  assert (S1 : SI s1).
  { apply (learnt_SI c s C a b); auto; [apply (CS_si _ H)|eapply an_ne; eauto|apply (an_range _ _ _ A)]. }
  assert (I1 : CI s1).
  { apply (learnt_CI c s C a b); auto; [apply (CS_ci _ H)|apply (an_false _ _ _ A)]. }
  assert (N1 : CNT s1).
  { eapply learnt_cnt; [exact HN| |exact L1]. intros l Hl. apply lit_false_un. apply (an_false _ _ _ A); auto. }
  unfold nc_conflict, getcl in E. rewrite HD in E. cbn [bind] in E.
  apply bind_ok in E. destruct E as (res & Er & E).
  assert (Eres : res = (s1, (C, (a, b)))).
  { apply (settled_ok (fun f => analyze f c s D (w0 s (confcl s)) (w1 s (confcl s)) false) N _ _ fuel).
    - intros. apply analyze_below; auto.
    - intros n Hn. rewrite (AE n Hn), E1. reflexivity.
    - exact Er. }
  subst res. apply bind_ok in E. destruct E as (lv & Elv & E).
  pose proof (backtrack_level_ok s1 C) as BO.
  assert (L0 : 0 <= lv).
  { destruct BO as (lv' & E' & V & _).
    - rewrite T1; auto.
    - rewrite T1. intros l Hl. split; [apply (an_range _ _ _ A); auto|].
      apply (an_le (tr s) (level s) (fun _ => True) HB C l A Hl).
    - rewrite (le_level _ _ _ _ _ _ L1). auto.
    - simpl in Elv. rewrite E' in Elv. injection Elv as <-. lia. }
  cbv zeta in E.
  assert (UN : forall k s2 s3, 0 <= k -> SI s2 -> CI s2 -> tr s2 = tr s1 -> CNT s2 -> undo_theory c s2 k = Ok s3 -> CNT s3).
  { intros k s2 s3 K Hs Hc Ht Hn Eu. apply (undo_cnt s2 k (level s) (fun _ => True)); auto; [|lia].
    rewrite Ht, T1. auto. }
  match type of E with context [if backtracks ?z =? rc then _ else _] => set (s2 := z) in * end.
  assert (S2 : SI s2) by (destruct S1; split; auto).
  assert (I2 : CI s2) by exact I1.
  destruct (backtracks s2 =? rc).
  - apply bind_ok in E. destruct E as (s3 & E3 & E). injection E as <- _.
    assert (N3 : CNT s3) by (apply (UN 0 s2); auto; lia).
    change (CNT (set_level (if level (set_restarts s3 (restarts s3 + 1)) =? 0 then only_last (set_restarts s3 (restarts s3 + 1)) else set_ulist (set_restarts s3 (restarts s3 + 1)) []) 0)).
    destruct (level (set_restarts s3 (restarts s3 + 1)) =? 0); exact N3.
  - apply bind_ok in E. destruct E as (s3 & E3 & E). injection E as <- _.
    assert (N3 : CNT s3) by (apply (UN (level s2) s2); auto).
    exact N3.
Qed.

End Bk.
