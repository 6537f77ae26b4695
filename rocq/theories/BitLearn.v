(** * The second solver: conflict analysis, learning and backjumping *)

From Coq Require Import Floats.SpecFloat.
From Verif Require Import Spec Outcome State ModelHeur ModelBuild ModelBit Base Scores BitTrail BitInv BitResolve
  BitStepSpec BitNode.

Section Learn.
Variable NV : Z.
Variable F : Z -> Z.
Variable DM : Z -> Z.
Variable M : (Z -> Z) -> Prop.
Hypothesis F_ne : forall v, 1 <= v <= NV -> exists i, inn i (F v).
Hypothesis DM_64 : forall v, 1 <= v <= NV -> DM v <= max_domain.

Notation base := (base NV F DM M).
Notation okL := (okL NV F).
Notation okC := (okC NV F M).

Definition idx (T : trail) (l : blit) : Z := nidx (nodeL T l).

Lemma node_of_ok s T l : base s T -> okL l -> bnode_of s l = Ok (nodeL T l).
Proof.
  intros B (H & _). unfold bnode_of. rewrite (bvar_ok NV F DM M s T) by (auto; lia). cbn [bind].
  rewrite (b_nodes _ _ _ _ s T B). reflexivity.
Qed.

Lemma node_false s T l : base s T -> okL l -> falseL F T l -> falsified_by s l (nodeL T l).
Proof. intros B (_ & Z1 & Z2) Hf. apply (node_falsified F); auto. apply (b_nodes _ _ _ _ s T B). Qed.

Lemma node_false_at s T l k : base s T -> okL l -> falseL F T l -> (false_at s l k <-> nlev (nodeL T l) = k).
Proof.
  intros B OL Hf. pose proof (node_false s T l B OL Hf) as H. split; [|intros <-; exists (nodeL T l); auto].
  intros (x & Hx & <-). rewrite (falsified_unique _ _ _ _ Hx H). auto.
Qed.

(** ** Choice of the watched literals of a resolvent *)

Definition best (T : trail) (P : bclause) (acc : (blit * Z) * (blit * Z)) : Prop :=
  let w1 := fst (fst acc) in let m1 := snd (fst acc) in
  let w2 := fst (snd acc) in let m2 := snd (snd acc) in
  (P = [] /\ m1 = -1 /\ m2 = -1) \/
  (In w1 P /\ m1 = idx T w1 /\ m2 < m1 /\ (forall l, In l P -> l <> w1 -> idx T l <= m2) /\
   (P = [w1] /\ m2 = -1 \/ In w2 P /\ w2 <> w1 /\ m2 = idx T w2)).

Lemma assign_fold s T rest : base s T -> forall P acc,
  NoDup (map fst (P ++ rest)) -> (forall l, In l (P ++ rest) -> okL l /\ falseL F T l) -> best T P acc ->
  exists acc', foldM (bwatch_step s) rest acc = Ok acc' /\ best T (P ++ rest) acc'.
Proof.
  intro B. induction rest as [|l rest IH]; intros P acc ND HL HB.
  - exists acc. rewrite app_nil_r. auto.
  - cbn [foldM].
    assert (Hl : In l (P ++ l :: rest)) by (apply in_or_app; right; left; auto).
    destruct (HL l Hl) as (OL & FL).
    assert (ND' : NoDup (map fst ((P ++ [l]) ++ rest))) by (rewrite <- app_assoc; auto).
    assert (HL' : forall x, In x ((P ++ [l]) ++ rest) -> okL x /\ falseL F T x).
    { intros x Hx. rewrite <- app_assoc in Hx. auto. }
    assert (POS : 1 <= idx T l).
    { apply (node_idx_pos NV F (bcl s) T l); try apply OL; auto. apply (b_ok _ _ _ _ s T B). }
    assert (NI : ~ In l P).
    { rewrite map_app in ND. cbn [map] in ND. apply NoDup_remove_2 in ND. intro Hi. apply ND.
      apply in_or_app. left. apply in_map. auto. }
    assert (NE : forall x, In x P -> idx T x <> idx T l).
    { intros x Hx E. assert (Hx' : In x (P ++ l :: rest)) by (apply in_or_app; auto).
      destruct (HL x Hx') as (OX & FX). unfold idx in E.
      assert (E' : fst x = fst l).
      { destruct OX as (_ & X1 & X2), OL as (_ & Y1 & Y2).
        apply (node_distinct NV F (bcl s) T); auto. apply (b_ok _ _ _ _ s T B). }
      clear E. rename E' into E. rewrite map_app in ND. cbn [map] in ND. apply NoDup_remove_2 in ND. apply ND.
      apply in_or_app. left. rewrite <- E. apply in_map. auto. }
    assert (ST : exists acc1, bwatch_step s acc l = Ok acc1 /\ best T (P ++ [l]) acc1).
    { unfold bwatch_step. rewrite (node_of_ok s T l B OL). cbn [bind]. fold (idx T l).
      destruct acc as ((w1, m1), (w2, m2)). cbn [fst snd] in *. unfold best in HB. cbn [fst snd] in HB.
      destruct (Z.ltb_spec m1 (idx T l)) as [L1|L1].
      - eexists. split; [reflexivity|]. unfold best. cbn [fst snd]. right.
        split; [apply in_or_app; right; left; auto|]. split; [auto|].
        destruct HB as [(-> & -> & ->)|(H1 & H2 & H3 & H4 & H5)].
        + split; [lia|]. split; [intros x [->|[]]; congruence|]. left. auto.
        + split; [lia|]. split.
          * intros x Hx Nx. apply in_app_or in Hx. destruct Hx as [Hx|[->|[]]]; [|congruence].
            destruct (blit_eq_dec x w1) as [->|N]; [lia|]. specialize (H4 x Hx N). lia.
          * right. split; [apply in_or_app; auto|]. split; [|auto]. intros ->. auto.
      - destruct HB as [(-> & -> & ->)|(H1 & H2 & H3 & H4 & H5)]; [lia|].
        destruct (Z.ltb_spec m2 (idx T l)) as [L2|L2].
        + eexists. split; [reflexivity|]. unfold best. cbn [fst snd]. right.
          split; [apply in_or_app; auto|]. split; [auto|]. split; [pose proof (NE w1 H1); lia|]. split.
          * intros x Hx Nx. apply in_app_or in Hx. destruct Hx as [Hx|[->|[]]]; [|lia].
            specialize (H4 x Hx Nx). lia.
          * right. split; [apply in_or_app; right; left; auto|]. split; [|auto]. intros ->. auto.
        + eexists. split; [reflexivity|]. unfold best. cbn [fst snd]. right.
          split; [apply in_or_app; auto|]. split; [auto|]. split; [auto|]. split.
          * intros x Hx Nx. apply in_app_or in Hx. destruct Hx as [Hx|[->|[]]]; auto.
          * destruct H5 as [(-> & ->)|(H5 & H6)]; [lia|]. right. split; auto. apply in_or_app. auto. }
    destruct ST as (acc1 & -> & HB1). cbn [bind].
    destruct (IH (P ++ [l]) acc1 ND' HL' HB1) as (acc' & E & HB'). exists acc'. rewrite <- app_assoc in HB'. auto.
Qed.

Lemma assign_ok s T q : base s T -> okC q -> (forall l, In l q -> falseL F T l) ->
  exists a b, bassign_watched s q = Ok (a, b) /\ In a q /\ (forall l, In l q -> l <> a -> idx T l < idx T a) /\
    (length q <> 1%nat -> In b q /\ fst b <> fst a /\ forall l, In l q -> l <> a -> idx T l <= idx T b).
Proof.
  intros B (NE & ND & OL & _) FL. unfold bassign_watched.
  destruct (assign_fold s T q B [] ((bnolit, -1), (bnolit, -1))) as (acc & -> & HB); auto.
  - left. auto.
  - cbn [bind]. exists (fst (fst acc)), (fst (snd acc)). split; [auto|]. cbn [app] in HB.
    destruct HB as [(-> & _)|(H1 & H2 & H3 & H4 & H5)]; [congruence|].
    split; [auto|]. split; [intros l Hl N; specialize (H4 l Hl N); lia|].
    intro L. destruct H5 as [(-> & _)|(H5 & H6 & H7)]; [simpl in L; congruence|].
    split; [auto|]. split; [|intros l Hl N; specialize (H4 l Hl N); lia].
    intro E. apply H6. apply (nodup_fst_eq q); auto.
Qed.

(** ** Analysis *)

Definition learnt (s : bst) (T : trail) (q : bclause) (a b : blit) : Prop :=
  okC q /\ (forall l, In l q -> falseL F T l) /\ In a q /\ ~ falseL F (cut (blevel s - 1) T) a /\
  (length q <> 1%nat -> In b q /\ fst a <> fst b /\ nlev (nodeL T b) < blevel s /\
     forall l, In l q -> l <> a -> falseL F (cut (nlev (nodeL T b)) T) l).

Lemma analyze_ok cf s T : base s T -> blevel s = toplev T -> blen cf = true ->
  forall k T1 T2 q a b fresh, T = T1 ++ T2 -> (length T2 <= k)%nat -> okC q ->
    (forall l, In l q -> falseL F T2 l) ->
    (exists l, In l q /\ ~ falseL F (cut (blevel s - 1) T) l) ->
    In a q -> (forall l, In l q -> l <> a -> idx T l < idx T a) ->
    (length q <> 1%nat -> In b q /\ fst b <> fst a) ->
    (if fresh : bool then length q <> 1%nat -> forall l, In l q -> l <> a -> idx T l <= idx T b
     else length q <> 1%nat /\ ~ falseL F (cut (blevel s - 1) T) b) ->
  exists N q' a' b', learnt s T q' a' b' /\ set_learns s q q' /\ forall fuel, (N <= fuel)%nat ->
    banalyze fuel cf s q a b fresh = let* s' := blearn cf s q' a' b' in Ok (s', (q', b')).
Proof.
  intros B LV LEN. pose proof (b_ok _ _ _ _ s T B) as OK.
  induction k as [|k IH]; intros T1 T2 q a b fresh ET Lk OQ FQ LQ Ha Hmax Hb Hf.
  { exfalso. assert (T2 = []) by (destruct T2; auto; simpl in Lk; lia). subst T2.
    destruct OQ as (_ & _ & OL & _). destruct (OL a Ha) as (_ & Hz & HF).
    destruct (nonzero_inn _ Hz) as (i & Hi). apply (FQ a Ha i Hi). cbn. auto. }
  pose proof OQ as (_ & ND & OL & HM).
  assert (FT : forall l, In l q -> falseL F T l) by (intros l Hl; rewrite ET; apply false_app; auto).
  assert (SUF : forall l T0 S, In l q -> T = T0 ++ S -> (falseL F S l <-> idx T l <= Z.of_nat (length S))).
  { intros l T0 S Hl E. destruct (OL l Hl) as (_ & Hz & HF). apply (node_suffix NV F (bcl s) T l T0 S); auto. }
  assert (CUT : forall l j, In l q -> (falseL F (cut j T) l <-> nlev (nodeL T l) <= j)).
  { intros l j Hl. destruct (OL l Hl) as (_ & Hz & HF). apply (node_cut NV F (bcl s)); auto. }
  assert (LA : forall l, In l q -> ~ falseL F (cut (blevel s - 1) T) l -> false_at s l (blevel s)).
  { intros l Hl Nl. apply (node_false_at s T l _ B (OL l Hl) (FT l Hl)). rewrite CUT in Nl by auto.
    destruct (OL l Hl) as (_ & Hz & HF). destruct (node_spec NV F (bcl s) T l OK (FT l Hl) Hz HF) as (P0 & T0 & E0 & _).
    assert (Hi : In (fst l, nodeL T l) T) by (rewrite E0 at 2; apply in_or_app; right; left; auto).
    pose proof (lev_bound NV F (bcl s) T _ OK Hi) as LBd. cbn [snd] in LBd. lia. }
  destruct (Nat.eq_dec (length q) 1) as [L1|L1].
  { (* one literal *)
    destruct fresh; [|destruct Hf as (Hf & _); congruence].
    assert (HA : In a q /\ ~ falseL F (cut (blevel s - 1) T) a /\ forall l, In l q -> l = a).
    { destruct LQ as (l & Hl & Nl). destruct q as [|x [|y q]]; simpl in L1; try discriminate.
      destruct Hl as [<-|[]], Ha as [<-|[]]. split; [left; auto|]. split; [auto|]. intros l [<-|[]]. auto. }
    exists 1%nat, q, a, b. split; [|split].
    - split; [auto|]. split; [auto|]. split; [auto|]. split; [|congruence].
      destruct LQ as (l & Hl & Nl). assert (l = a) as ->; auto.
      destruct q as [|x [|y q]]; simpl in L1; try discriminate. destruct Hl as [<-|[]], Ha as [<-|[]]. auto.
    - destruct HA as (HA1 & HA2 & HA3). apply set_learns_done. exists a. split; [auto|]. split; [auto|].
      intros l Hl Nl. exfalso. auto.
    - intros fuel Hfu. destruct fuel; [lia|]. cbn [banalyze]. unfold bpotent. rewrite L1. cbn [bind Nat.eqb]. auto. }
  destruct (Hb L1) as (Hb1 & Hb2).
  assert (Eq1 : Nat.eqb (length q) 1 = false) by (apply Nat.eqb_neq; auto).
  destruct (Z_lt_le_dec (nlev (nodeL T b)) (blevel s)) as [LB|LB].
  - (* potent *)
    destruct fresh.
    2: { exfalso. destruct Hf as (_ & Hf). apply Hf. apply CUT; auto. lia. }
    assert (REST : forall l, In l q -> l <> a -> falseL F (cut (nlev (nodeL T b)) T) l).
    { intros l Hl Nl. destruct (cut_split NV F (bcl s) (nlev (nodeL T b)) T OK) as (T0 & E0 & _).
      apply (SUF l T0 _ Hl E0). transitivity (idx T b); [apply Hf; auto|]. apply (SUF b T0 _ Hb1 E0).
      apply CUT; auto. lia. }
    assert (NFA : ~ falseL F (cut (blevel s - 1) T) a).
    { destruct LQ as (l & Hl & Nl). destruct (blit_eq_dec l a) as [->|N]; auto. exfalso. apply Nl.
      apply (false_cut NV F (bcl s) (nlev (nodeL T b))); auto. lia. }
    exists 1%nat, q, a, b. split; [|split].
    + split; [auto|]. split; [auto|]. split; [auto|]. split; [auto|].
      intros _. split; [auto|]. split; [auto|]. split; auto.
    + apply set_learns_done. exists a. split; [auto|]. split; [auto|]. intros l Hl Nl. exists (nlev (nodeL T l)).
      split; [|apply (node_false_at s T l _ B (OL l Hl) (FT l Hl)); auto].
      pose proof (proj1 (CUT l _ Hl) (REST l Hl Nl)). lia.
    + intros fuel Hfu. destruct fuel; [lia|]. cbn [banalyze]. unfold bpotent. rewrite Eq1.
      rewrite (node_of_ok s T b B (OL b Hb1)). cbn [bind].
      destruct (Z.ltb_spec (nlev (nodeL T b)) (blevel s)); [auto|lia].
  - (* resolution with the reason *)
    destruct (OL a Ha) as (Ra & Hz & HF).
    destruct (node_spec NV F (bcl s) T a OK (FT a Ha) Hz HF) as (P & T3 & E3 & F3 & N3).
    set (x := nodeL T a) in *.
    pose proof (okT_split NV F _ _ _ _ _ _ E3 OK) as (_ & HI & _ & Hvs & _ & HR).
    assert (E3' : T = (P ++ [(fst a, x)]) ++ T3) by (rewrite <- app_assoc; exact E3).
    assert (REST : forall l, In l q -> l <> a -> falseL F T3 l).
    { intros l Hl Nl. apply (SUF l _ _ Hl E3'). specialize (Hmax l Hl Nl).
      change (idx T a) with (nidx x) in Hmax. lia. }
    assert (NBA : b <> a) by congruence.
    assert (TOP : blevel s <= toplev T3).
    { destruct (OL b Hb1) as (_ & Hzb & HFb).
      destruct (node_spec NV F (bcl s) T b OK (FT b Hb1) Hzb HFb) as (P4 & T4 & E4 & _).
      pose proof (okT_split NV F _ _ _ _ _ _ E4 OK) as (_ & HI4 & _).
      pose proof (Hmax b Hb1 NBA) as LT. change (idx T a) with (nidx x) in LT. unfold idx in LT.
      rewrite E4 in E3' at 1.
      destruct (suffix_cmp _ _ _ _ E3') as (c & Ec & _); [simpl; lia|].
      assert (OK3 : okT NV F (bcl s) T3) by (rewrite E3 in OK; apply okT_app in OK; apply OK).
      assert (Hi : In (fst b, nodeL T b) T3) by (rewrite Ec; apply in_or_app; right; left; auto).
      pose proof (lev_bound NV F (bcl s) T3 _ OK3 Hi) as LBd. cbn [snd] in LBd. lia. }
    assert (LX : nlev x <= blevel s).
    { assert (Hi : In (fst a, x) T) by (rewrite E3; apply in_or_app; right; left; auto).
      pose proof (lev_bound NV F (bcl s) T _ OK Hi) as LBd. cbn [snd] in LBd. lia. }
    destruct (nreason x) as [n|] eqn:ER; [|lia].
    destruct HR as (HLX & R & Bm & En & HinR & HnB & HallR).
    pose proof (b_cls _ _ _ _ s T B n R En) as (_ & NDR & OLR & HMR).
    set (q2 := bresolve q a R).
    assert (NB : ~ falseL F (cut (blevel s - 1) T) b) by (rewrite CUT by auto; lia).
    assert (EX : exists l, In l q2 /\ ~ falseL F (cut (blevel s - 1) T) l).
    { apply (resolve_ex (fun l => ~ falseL F (cut (blevel s - 1) T) l)).
      - intros v m1 m2 H1 H2. apply H1. intros i Hi. apply H2. cbn [fst snd] in *. apply inn_lor. auto.
      - intros v m1 m2 H1 H2. apply H1. intros i Hi. apply H2. cbn [fst snd] in *. apply inn_lor. auto.
      - left. exists b. auto. }
    assert (OQ2 : okC q2).
    { split; [|split; [apply resolve_nodup|split]].
      - destruct EX as (l & Hl & _). intro E. rewrite E in Hl. destruct Hl.
      - apply (resolve_all (fun l => okL l)); auto.
        + intros v m1 m2 (Q1 & Q2 & Q3) (Q4 & Q5 & Q6). split; [auto|]. cbn [fst snd] in *. split.
          * destruct (nonzero_inn _ Q2) as (i & Hi). apply (inn_nonzero i). apply inn_lor. auto.
          * intros i Hi. apply inn_lor in Hi. destruct Hi; auto.
        + intros y Hy Ey Nz. split; [auto|]. cbn [fst snd]. split; [auto|]. intros i Hi. apply inn_land in Hi. apply HF. tauto.
      - intros al Hal. apply resolve_holds; auto. }
    assert (FQ2 : forall l, In l q2 -> falseL F T3 l).
    { apply (resolve_all (fun l => falseL F T3 l)).
      - intros v m1 m2 H1 H2 i Hi. cbn [fst snd] in *. apply inn_lor in Hi. destruct Hi; [apply H1|apply H2]; auto.
      - intros y Hy Ny. apply REST; auto. intros ->. auto.
      - intros y Hy Ny. apply HallR; auto.
      - intros y Hy Ey Nz i Hi. cbn [fst snd] in *. apply inn_land in Hi. destruct Hi as (Hi1 & Hi2).
        assert (Ey2 : y = (fst a, Bm)) by (apply (nodup_fst_eq R); auto). rewrite Ey2 in Hi2. cbn [snd] in Hi2.
        intro HD. apply (F3 i Hi1). apply D_cons. split; [auto|]. intros _ Hx. apply (HnB i Hx Hi2). }
    assert (L3 : (length T3 <= k)%nat).
    { pose proof (proj1 (SUF a T1 T2 Ha ET) (FQ a Ha)) as L. unfold idx in L. fold x in L. lia. }
    destruct (assign_ok s T q2 B OQ2) as (a2 & b2 & EA & Ha2 & Hmax2 & Hb2').
    { intros l Hl. rewrite E3'. apply false_app. auto. }
    destruct (IH (P ++ [(fst a, x)]) T3 q2 a2 b2 true E3' L3 OQ2 FQ2 EX Ha2 Hmax2) as (N & q' & a' & b' & HL & HLS & HR).
    { intro L. destruct (Hb2' L) as (G1 & G2 & _). auto. }
    { intro L. destruct (Hb2' L) as (_ & _ & G). auto. }
    assert (FLa : falsified_by s a x) by (apply (node_false s T a B (OL a Ha) (FT a Ha))).
    exists (S N), q', a', b'. split; [auto|]. split.
    { apply (set_learns_step s q a R q2); auto.
      - intros (u & Hu & _ & HO).
        assert (AB : forall l, In l q -> false_at s l (blevel s) -> l = u).
        { intros l Hl Hat. destruct (blit_eq_dec l u) as [|Nu]; auto. exfalso. destruct (HO l Hl Nu) as (k0 & Hk0 & Hat').
          apply (node_false_at s T l _ B (OL l Hl) (FT l Hl)) in Hat, Hat'. lia. }
        apply NBA. rewrite (AB b), (AB a); auto. exists x. split; auto. lia.
      - split; [auto|]. exists x. split; [auto|]. intros m Hm Nm. exists (nodeL T m).
        split; [apply (node_false s T m B (OL m Hm) (FT m Hm))|apply Hmax; auto].
      - exists x, n. auto.
      - apply resolve_resolvent; auto. }
    intros fuel Hfu. destruct fuel; [lia|]. cbn [banalyze].
    unfold bpotent. rewrite Eq1. rewrite (node_of_ok s T b B (OL b Hb1)). cbn [bind].
    destruct (Z.ltb_spec (nlev (nodeL T b)) (blevel s)); [lia|].
    rewrite (node_of_ok s T a B (OL a Ha)). cbn [bind]. fold x. rewrite ER, (bget_ok s n R En). cbn [bind].
    fold q2. rewrite EA. cbn [bind fst snd]. apply HR. lia.
Qed.

(** ** Storing the learned clause *)

Lemma bump_ok ls : forall s, bnv s = NV -> (forall v, 0 <= v <= NV -> bdom s v = DM v) ->
  (forall l, In l ls -> okL l) -> (forall v j, nonneg (bsc s v j)) ->
  exists sc, foldM bump_lit ls s = Ok (set_bsc s sc) /\ forall v j, nonneg (sc v j).
Proof.
  induction ls as [|l ls IH]; intros s E1 E2 HL NN.
  - exists (bsc s). split; auto. cbn [foldM]. destruct s; reflexivity.
  - cbn [foldM]. unfold bump_lit at 1. destruct (HL l (or_introl eq_refl)) as (Hl & _).
    assert (BV : bvar s (fst l) = Ok tt).
    { unfold bvar. rewrite E1. destruct (Z.leb_spec 0 (fst l)), (Z.leb_spec (fst l) NV); auto; lia. }
    rewrite BV. cbn [bind]. rewrite E2 by lia. specialize (DM_64 _ Hl).
    destruct (Z.ltb_spec max_domain (DM (fst l))); [lia|]. cbn [bind].
    edestruct (IH (set_bsc s (fun v j =>
      if (v =? fst l) && (0 <=? j) && (j <? DM (fst l)) && Z.testbit (snd l) j
      then f64_add (bsc s v j) f64_one else bsc s v j))) as (sc & E & H'); auto.
    { intros x Hx. apply HL. right. auto. }
    { intros v j. cbn. destruct (_ && _); [apply add_one_nn|]; auto. }
    exists sc. rewrite E. auto.
Qed.

Definition learn_rec (s : bst) (q : bclause) (a b : blit) : Z -> list nat :=
  let n := length (bcl s) in
  let r := upd1 (brec s) (fst a) (n :: brec s (fst a)) in
  if Nat.ltb 1 (length q) then upd1 r (fst b) (n :: r (fst b)) else r.

Definition stored (s : bst) (q : bclause) (a b : blit) (sc : Z -> Z -> spec_float) : bst :=
  let n := length (bcl s) in
  set_bsc (set_brec (set_bw1 (set_bw0 (set_bcl s (bcl s ++ [q])) (updn (bw0 s) n a)) (updn (bw1 s) n b))
    (learn_rec s q a b)) sc.

Lemma learn_ok cf s q a b : bnv s = NV -> (forall v, 0 <= v <= NV -> bdom s v = DM v) ->
  (forall l, In l q -> okL l) -> In a q -> (Nat.ltb 1 (length q) = true -> In b q) -> blen cf = true ->
  (forall v j, nonneg (bsc s v j)) ->
  exists sc, blearn cf s q a b = Ok (stored s q a b sc) /\ forall v j, nonneg (sc v j).
Proof.
  intros E1 E2 HL Ha Hb LEN NN. unfold blearn. cbv zeta.
  match goal with |- context [badd_record ?x (fst a) _] => set (s1 := x) end.
  assert (BV : forall l s', In l q -> bnv s' = NV -> bvar s' (fst l) = Ok tt).
  { intros l s' Hl E. destruct (HL l Hl) as (Hv & _). unfold bvar. rewrite E.
    destruct (Z.leb_spec 0 (fst l)), (Z.leb_spec (fst l) NV); auto; lia. }
  unfold badd_record at 1. rewrite (BV a s1 Ha E1). cbn [bind].
  set (s2 := set_brec s1 (upd1 (brec s1) (fst a) (length (bcl s) :: brec s1 (fst a)))).
  assert (ER : (if Nat.ltb 1 (length q) then badd_record s2 (fst b) (length (bcl s)) else Ok s2)
    = Ok (set_brec s1 (learn_rec s q a b))).
  { unfold learn_rec. destruct (Nat.ltb 1 (length q)) eqn:EL; [|reflexivity].
    unfold badd_record. rewrite (BV b s2 (Hb eq_refl) E1). reflexivity. }
  rewrite ER. cbn [bind].
  destruct (bump_ok q (set_brec s1 (learn_rec s q a b))) as (sc & E & H); auto.
  rewrite E. cbn [bind]. rewrite LEN. eexists. split; [reflexivity|].
  intros v j. cbn. apply half_nn. auto.
Qed.

(** ** Undoing *)

Lemma pop_ok cl lev v T : okT NV F cl T -> forall aix,
  bpop lev (proj v T) (D F T v) aix = (proj v (cut lev T), D F (cut lev T) v,
    aix - (Z.of_nat (length (proj v T)) - Z.of_nat (length (proj v (cut lev T))))).
Proof.
  induction T as [|(u, x) T IH]; intros OK aix.
  - cbn. f_equal. lia.
  - destruct (Z.ltb_spec lev (nlev x)) as [L|L].
    + rewrite cut_cons by auto. rewrite proj_cons. destruct OK as (HN & OK).
      destruct (Z.eqb_spec u v) as [->|N].
      * cbn [bpop]. destruct (Z.ltb_spec lev (nlev x)); [|lia].
        assert (ED : Z.lor (D F ((v, x) :: T) v) (nvals x) = D F T v).
        { apply inn_ext. intro i. rewrite inn_lor, D_cons. destruct HN as (_ & _ & _ & H4 & _).
          split; [intros [(G & _)|G]; auto|]. intro G. destruct (inn_dec i (nvals x)); auto. }
        rewrite ED, (IH OK). f_equal. cbn [length]. lia.
      * rewrite D_other by auto. apply IH; auto.
    + rewrite (cut_all NV F cl) by (auto; cbn [toplev]; lia).
      assert (EB : forall ns cur, (forall y, In y ns -> nlev y <= lev) -> bpop lev ns cur aix = (ns, cur, aix)).
      { intros [|y ns] cur H; auto. cbn [bpop]. destruct (Z.ltb_spec lev (nlev y)); auto.
        specialize (H y (or_introl eq_refl)). lia. }
      rewrite EB; [f_equal; lia|]. intros y Hy. unfold proj in Hy. apply in_map_iff in Hy.
      destruct Hy as (e & <- & He). apply filter_In in He. destruct He as (He & _).
      pose proof (lev_bound NV F cl _ e OK He) as BD. cbn [toplev] in BD. lia.
Qed.

Definition undone (s : bst) (ns : Z -> list node) (cur : Z -> Z) (aix : Z) : bst :=
  set_baix (set_bcur (set_bnodes s ns) cur) aix.

Definition psum (T : trail) (vs : list Z) : Z := fold_right (fun v a => Z.of_nat (length (proj v T)) + a) 0 vs.

Lemma undo_fold cl T vs : okT NV F cl T -> forall s, NoDup vs ->
  (forall v, In v vs -> bnodes s v = proj v T /\ bcur s v = D F T v) ->
  exists ns cur, fold_left bundo_var vs s = undone s ns cur (baix s - (psum T vs - psum (cut (blevel s) T) vs)) /\
    (forall v, In v vs -> ns v = proj v (cut (blevel s) T) /\ cur v = D F (cut (blevel s) T) v) /\
    (forall v, ~ In v vs -> ns v = bnodes s v /\ cur v = bcur s v).
Proof.
  intro OK. induction vs as [|v vs IH]; intros s ND H.
  - exists (bnodes s), (bcur s). split; [|split; [intros v []|auto]].
    unfold psum. cbn [fold_left fold_right]. rewrite Z.sub_diag, Z.sub_0_r. destruct s; reflexivity.
  - inversion ND as [|? ? N1 N2]; subst. cbn [fold_left]. unfold bundo_var at 2.
    destruct (H v (or_introl eq_refl)) as (-> & ->). rewrite (pop_ok cl) by auto.
    match goal with |- context [fold_left _ _ ?y] => set (s1 := y) end.
    destruct (IH s1) as (ns & cur & E & HI & HO); auto.
    { intros u Hu. assert (u <> v) by congruence. cbn. rewrite !upd1_other by auto. apply H. right. auto. }
    exists ns, cur. rewrite E. split; [|split].
    + change (blevel s1) with (blevel s).
      change (baix s1) with (baix s - (Z.of_nat (length (proj v T)) - Z.of_nat (length (proj v (cut (blevel s) T))))).
      assert (EP : forall T', psum T' (v :: vs) = Z.of_nat (length (proj v T')) + psum T' vs) by reflexivity.
      rewrite !EP. unfold undone, s1.
      match goal with |- set_baix _ ?x = set_baix _ ?y => replace y with x by lia end. reflexivity.
    + intros u [<-|Hu].
      * destruct (HO v N1) as (-> & ->). unfold s1. cbn. rewrite !upd1_same. auto.
      * apply HI; auto.
    + intros u Hu. assert (u <> v) by (intros ->; apply Hu; left; auto).
      destruct (HO u) as (-> & ->); [intro; apply Hu; right; auto|]. unfold s1. cbn. rewrite !upd1_other by auto. auto.
Qed.

Lemma psum_all cl T : okT NV F cl T -> psum T (zrange 1 NV) = Z.of_nat (length T).
Proof.
  induction T as [|(u, x) T IH].
  - intros _. unfold psum. induction (zrange 1 NV); cbn in *; lia.
  - intros (HN & OK). specialize (IH OK). destruct HN as (Hu & _). cbn [length].
    assert (G : forall vs, NoDup vs -> psum ((u, x) :: T) vs = psum T vs + (if in_dec Z.eq_dec u vs then 1 else 0)).
    { induction vs as [|v vs IHv]; intro ND; [reflexivity|]. inversion ND as [|? ? N1 N2]; subst.
      specialize (IHv N2). unfold psum in *. cbn [fold_right]. rewrite IHv, proj_cons.
      destruct (Z.eqb_spec u v) as [->|N].
      - destruct (in_dec Z.eq_dec v (v :: vs)) as [|X]; [|exfalso; apply X; left; auto].
        destruct (in_dec Z.eq_dec v vs); [tauto|]. cbn [length]. lia.
      - destruct (in_dec Z.eq_dec u (v :: vs)) as [[X|X]|X]; destruct (in_dec Z.eq_dec u vs) as [Y|Y]; try lia; try congruence; try tauto.
        exfalso. apply X. right. auto. }
    rewrite G by apply nodup_zrange. destruct (in_dec Z.eq_dec u (zrange 1 NV)) as [|X]; [lia|].
    exfalso. apply X. apply in_zrange. lia.
Qed.

Lemma undo_ok cl s T : okT NV F cl T -> 0 <= NV -> bnv s = NV -> (forall v, 0 <= v <= NV -> bcur s v = D F T v) ->
  (forall v, bnodes s v = proj v T) -> baix s = Z.of_nat (length T) ->
  exists ns cur, bundo s = undone s ns cur (Z.of_nat (length (cut (blevel s) T))) /\
    (forall v, ns v = proj v (cut (blevel s) T)) /\ (forall v, 0 <= v <= NV -> cur v = D F (cut (blevel s) T) v).
Proof.
  intros OK HN E1 E2 E3 E4. unfold bundo. rewrite E1.
  destruct (undo_fold cl T (zrange 1 NV) OK s) as (ns & cur & E & HI & HO).
  { apply nodup_zrange. }
  { intros v Hv. apply in_zrange in Hv. split; [auto|]. apply E2. lia. }
  exists ns, cur. rewrite E. split.
  { f_equal. rewrite (psum_all cl T OK), (psum_all cl (cut (blevel s) T)) by (apply cut_ok; auto). lia. }
  assert (OUT : forall v, ~ In v (zrange 1 NV) -> proj v (cut (blevel s) T) = proj v T /\ D F (cut (blevel s) T) v = D F T v).
  { intros v Hv. assert (Nv : forall e, In e T -> fst e <> v).
    { intros e He <-. apply Hv. apply in_zrange. apply in_split in He. destruct He as (T1 & T2 & Es). destruct e as (u, x).
      pose proof (okT_split NV F _ _ _ _ _ _ Es OK) as (Hu & _). cbn [fst]. lia. }
    clear - Nv. induction T as [|(u, x) T IH]; auto.
    assert (Nu : u <> v) by (apply (Nv (u, x)); left; auto).
    destruct IH as (IH1 & IH2); [intros e He; apply Nv; right; auto|].
    rewrite proj_cons, D_other by auto. destruct (Z.eqb_spec u v); [congruence|].
    unfold cut. cbn [filter snd]. destruct (nlev x <=? blevel s); auto.
    rewrite proj_cons, D_other by auto. destruct (Z.eqb_spec u v); [congruence|]. auto. }
  split.
  - intro v. destruct (in_dec Z.eq_dec v (zrange 1 NV)) as [Hv|Hv]; [apply HI; auto|].
    destruct (HO v Hv) as (-> & _), (OUT v Hv) as (-> & _). auto.
  - intros v Hv'. destruct (in_dec Z.eq_dec v (zrange 1 NV)) as [Hv|Hv]; [apply HI; auto|].
    destruct (HO v Hv) as (_ & ->), (OUT v Hv) as (_ & ->). auto.
Qed.

(** ** Backjumping *)

Notation clash := (clash NV F DM M).
Notation calm := (calm NV F DM M).

(** Clauses with one literal are satisfied at level 0. *)
Definition fixed (s : bst) (T : trail) : Prop :=
  0 < blevel s -> forall n c l, nth_error (bcl s) n = Some c -> length c = 1%nat -> In l c -> trueL F (cut 0 T) l.

Lemma conflict_ok cf r rc s T : 0 <= NV -> clash s T -> 0 < blevel s -> fixed s T -> blen cf = true ->
  bback s + 1 <> rc ->
  exists N s' lev n q, (forall fuel, (N <= fuel)%nat -> bconflict fuel cf r rc s = Ok (s', rc)) /\
    calm s' (cut lev T) /\ fixed s' (cut lev T) /\ bulist s' = [n] /\ 0 <= lev < blevel s /\ blevel s' = lev /\
    ~ trueL F (cut lev T) (bw0 s' n) /\ ~ falseL F (cut lev T) (bw0 s' n) /\ bcl s' = bcl s ++ [q] /\
    bback s' = bback s + 1 /\ bdec s' = bdec s /\ bunits s' = bunits s /\ brest s' = brest s /\ btick s' = btick s /\
    n = length (bcl s) /\ (exists c, nth_error (bcl s) (bcc s) = Some c /\ set_learns s c q) /\
    exists b, learnt s T q (bw0 s' n) b /\ lev = if Nat.ltb 1 (length q) then nlev (nodeL T b) else 0.
Proof.
  intros NVn (B & LV & CF & CO & ON) LP FX LEN NRC.
  pose proof (b_ok _ _ _ _ s T B) as OK.
  destruct CO as (c & v & x & T0 & ET & Ec & Lc & Fc & Ev & NF0 & NF1).
  destruct (watch_lits NV F DM M s T (bcc s) c B Ec) as (Hw0 & OL0 & Hw1). destruct (Hw1 Lc) as (Hw1' & OL1 & Dw). clear Hw1.
  pose proof (b_cls _ _ _ _ s T B _ _ Ec) as OC. pose proof OC as (_ & NDc & OLc & _).
  destruct (analyze_ok cf s T B LV LEN (length T) [] T c (bw0 s (bcc s)) (bw1 s (bcc s)) false) as (N & q & a & b & HL & HLS & HA);
    auto.
  { exists (bw1 s (bcc s)). auto. }
  { intros l Hl Nl. unfold idx.
    assert (S0 : forall l, In l c -> (falseL F T0 l <-> nidx (nodeL T l) <= Z.of_nat (length T0))).
    { intros l0 Hl0. destruct (OLc l0 Hl0) as (_ & Z1 & Z2). apply (node_suffix NV F (bcl s) T l0 [(v, x)]); auto. }
    assert (Nv : fst l <> v) by (intro E; apply Nl; apply (nodup_fst_eq c); auto; congruence).
    assert (F0 : falseL F T0 l) by (specialize (Fc l Hl); rewrite ET in Fc; apply (false_other F T0 v x l Nv); auto).
    apply S0 in F0; auto. rewrite S0 in NF0 by auto. lia. }
  pose proof HL as (OQ & FQ & Ha & NFa & Hb). pose proof OQ as (NEq & NDq & OLq & HMq).
  assert (LB : Nat.ltb 1 (length q) = true <-> length q <> 1%nat).
  { rewrite Nat.ltb_lt. destruct q; [congruence|]. simpl. lia. }
  assert (CASE : Nat.ltb 1 (length q) = true /\ length q <> 1%nat \/ Nat.ltb 1 (length q) = false /\ length q = 1%nat).
  { destruct (Nat.eq_dec (length q) 1) as [L|L]; [right|left]; split; auto; [rewrite L; auto|apply LB; auto]. }
  destruct (learn_ok cf s q a b) as (sc & EL & HS); auto.
  { apply (b_nv _ _ _ _ s T B). }
  { apply (b_dom _ _ _ _ s T B). }
  { intro L. apply LB in L. apply Hb; auto. }
  { apply (b_sc _ _ _ _ s T B). }
  set (lev := if Nat.ltb 1 (length q) then nlev (nodeL T b) else 0).
  set (s1 := stored s q a b sc) in *.
  set (s2 := set_bconf (set_bback (set_blevel s1 lev) (bback s1 + 1)) false).
  assert (NSb : length q <> 1%nat -> exists T1 T2, T = T1 ++ (fst b, nodeL T b) :: T2).
  { intro L. destruct (Hb L) as (Hb1 & _). destruct (OLq b Hb1) as (_ & Z1 & Z2).
    destruct (node_spec NV F (bcl s) T b OK (FQ b Hb1) Z1 Z2) as (T1 & T2 & E & _). eauto. }
  assert (LEV1 : length q = 1%nat -> lev = 0).
  { intro L. unfold lev. rewrite L. auto. }
  assert (LEV2 : length q <> 1%nat -> lev = nlev (nodeL T b)).
  { intro L. apply LB in L. unfold lev. rewrite L. auto. }
  assert (HLEV : 0 <= lev < blevel s).
  { destruct (Nat.eq_dec (length q) 1) as [E|E]; [rewrite (LEV1 E); lia|]. rewrite (LEV2 E).
    destruct (Hb E) as (_ & _ & Hlt & _). split; [|auto]. destruct (NSb E) as (T1 & T2 & Es).
    assert (Hi : In (fst b, nodeL T b) T) by (rewrite Es at 2; apply in_or_app; right; left; auto).
    pose proof (lev_bound NV F (bcl s) T _ OK Hi) as LBd. cbn [snd] in LBd. lia. }
  destruct (undo_ok (bcl s) s2 T OK NVn) as (ns & cur & EU & HN & HC).
  { apply (b_nv _ _ _ _ s T B). }
  { apply (b_cur _ _ _ _ s T B). }
  { apply (b_nodes _ _ _ _ s T B). }
  { apply (b_aix _ _ _ _ s T B). }
  set (T' := cut lev T) in *. change (blevel s2) with lev in *. fold T' in EU, HN, HC.
  set (n := length (bcl s)).
  set (s3 := set_bulist (bundo s2) [n]).
  assert (NFa' : ~ falseL F T' a).
  { intro H. apply NFa. unfold T' in H. apply (false_cut NV F (bcl s) lev); auto. lia. }
  assert (NTa : ~ trueL F T' a).
  { intro H. destruct (OLq a Ha) as (Ra & _). apply (not_both NV F (bcl s) T a); auto.
    apply (true_cut_T NV F (bcl s) lev); auto. }
  assert (CUTl : forall k, k <= lev -> cut k T' = cut k T) by (intros k Hk; apply cut_cut; auto).
  assert (ECL : bcl s3 = bcl s ++ [q]) by (unfold s3; rewrite EU; reflexivity).
  assert (EW0 : bw0 s3 = updn (bw0 s) n a) by (unfold s3; rewrite EU; reflexivity).
  assert (EW1 : bw1 s3 = updn (bw1 s) n b) by (unfold s3; rewrite EU; reflexivity).
  assert (EREC : brec s3 = learn_rec s q a b) by (unfold s3; rewrite EU; reflexivity).
  assert (ELV : blevel s3 = lev) by (unfold s3; rewrite EU; reflexivity).
  assert (ESC : bsc s3 = sc) by (unfold s3; rewrite EU; reflexivity).
  assert (NEW : forall m d, nth_error (bcl s3) m = Some d ->
    (m <> n /\ nth_error (bcl s) m = Some d) \/ (m = n /\ d = q)).
  { intros m d Em. rewrite ECL in Em. destruct (Nat.lt_trichotomy m n) as [L|[-> |L]].
    - left. split; [lia|]. rewrite nth_error_app1 in Em by auto. auto.
    - right. split; auto. unfold n in Em. rewrite nth_error_app2, Nat.sub_diag in Em by lia. cbn in Em. congruence.
    - exfalso. assert (m < length (bcl s ++ [q]))%nat by (apply nth_error_Some; congruence).
      rewrite app_length in H. cbn in H. unfold n in L. lia. }
  assert (OLD : forall m d, nth_error (bcl s) m = Some d -> nth_error (bcl s3) m = Some d /\ m <> n).
  { intros m d Em. assert (L : (m < n)%nat) by (apply nth_error_Some; congruence). split; [|lia].
    rewrite ECL, nth_error_app1; auto. }
  assert (GET : nth_error (bcl s3) n = Some q).
  { rewrite ECL. unfold n. rewrite nth_error_app2, Nat.sub_diag by lia. auto. }
  assert (HFIX : forall m d, m <> n -> nth_error (bcl s) m = Some d -> length d = 1%nat -> trueL F T' (bw0 s m)).
  { intros m d Nm Em Ld. destruct (watch_lits NV F DM M s T m d B Em) as (Hm & _).
    unfold T'. apply (true_cut NV F (bcl s) 0); [auto|lia|]. apply (FX LP m d); auto. }
  assert (B3 : base s3 T').
  { constructor.
    - unfold s3. rewrite EU. apply (b_nv _ _ _ _ s T B).
    - unfold s3. rewrite EU. apply (b_dom _ _ _ _ s T B).
    - unfold s3. rewrite EU. apply HC.
    - unfold s3. rewrite EU. apply HN.
    - unfold s3. rewrite EU. reflexivity.
    - rewrite ECL. apply okT_grow. apply cut_ok. auto.
    - intros m d Em. apply NEW in Em. destruct Em as [(_ & Em)|(_ & ->)]; auto. apply (b_cls _ _ _ _ s T B m); auto.
    - intros m d Em. rewrite EW0, EW1. apply NEW in Em. destruct Em as [(Nm & Em)|(-> & ->)].
      + rewrite !updn_other by auto. apply (b_watch _ _ _ _ s T B); auto.
      + rewrite !updn_same. split; auto. intro L. destruct (Hb L) as (H1 & H2 & _). auto.
    - intros u m Hu. rewrite EREC, EW0, EW1. unfold learn_rec. fold n.
      pose proof (b_rec _ _ _ _ s T B u m Hu) as BR.
      assert (NI : ~ In n (brec s u)).
      { rewrite (b_rec _ _ _ _ s T B u n Hu). intros (d & Ed & _). apply OLD in Ed. tauto. }
      destruct (Nat.eq_dec m n) as [->|Nm].
      + rewrite !updn_same. split.
        * intro Hi. exists q. split; auto. destruct CASE as [(EL0 & EL1)|(EL0 & EL1)]; rewrite EL0 in Hi.
          -- destruct (Z.eq_dec u (fst b)) as [->|Nb]; [auto|]. rewrite upd1_other in Hi by auto.
             destruct (Z.eq_dec u (fst a)) as [->|Na]; [auto|]. rewrite upd1_other in Hi by auto. tauto.
          -- destruct (Z.eq_dec u (fst a)) as [->|Na]; [auto|]. rewrite upd1_other in Hi by auto. tauto.
        * intros (d & Ed & Hd). assert (d = q) by congruence. subst d. destruct CASE as [(EL0 & EL1)|(EL0 & EL1)]; rewrite EL0.
          -- destruct (Z.eq_dec u (fst b)) as [->|Nb]; [rewrite upd1_same; left; auto|]. rewrite upd1_other by auto.
             destruct Hd as [<- |(_ & Hd)]; [rewrite upd1_same; left; auto|congruence].
          -- destruct Hd as [<- |(Hd & _)]; [rewrite upd1_same; left; auto|]. congruence.
      + rewrite !updn_other by auto.
        assert (X : In m (if Nat.ltb 1 (length q) then
            upd1 (upd1 (brec s) (fst a) (n :: brec s (fst a))) (fst b)
              (n :: upd1 (brec s) (fst a) (n :: brec s (fst a)) (fst b)) u
            else upd1 (brec s) (fst a) (n :: brec s (fst a)) u) <-> In m (brec s u)).
        { assert (X1 : forall w, In m (upd1 (brec s) (fst a) (n :: brec s (fst a)) w) <-> In m (brec s w)).
          { intro w. destruct (Z.eq_dec w (fst a)) as [->|Na].
            - rewrite upd1_same. simpl. intuition congruence.
            - rewrite upd1_other by auto. tauto. }
          destruct (Nat.ltb 1 (length q)); [|apply X1].
          destruct (Z.eq_dec u (fst b)) as [->|Nb].
          - rewrite upd1_same. simpl. rewrite X1. intuition congruence.
          - rewrite upd1_other by auto. apply X1. }
        replace ((if Nat.ltb 1 (length q) then
            upd1 (upd1 (brec s) (fst a) (n :: brec s (fst a))) (fst b)
              (n :: upd1 (brec s) (fst a) (n :: brec s (fst a)) (fst b))
            else upd1 (brec s) (fst a) (n :: brec s (fst a))) u) with
           (if Nat.ltb 1 (length q) then
            upd1 (upd1 (brec s) (fst a) (n :: brec s (fst a))) (fst b)
              (n :: upd1 (brec s) (fst a) (n :: brec s (fst a)) (fst b)) u
            else upd1 (brec s) (fst a) (n :: brec s (fst a)) u) by (destruct (Nat.ltb 1 (length q)); auto).
        rewrite X, BR. split; intros (d & Ed & Hd); exists d; split; auto.
        * apply OLD; auto.
        * apply NEW in Ed. destruct Ed as [(_ & Ed)|(Ed & _)]; [auto|congruence].
    - intros u Hu. rewrite EREC. unfold learn_rec. fold n.
      assert (NI : forall w, 0 <= w <= NV -> ~ In n (brec s w)).
      { intros w Hw. rewrite (b_rec _ _ _ _ s T B w n Hw). intros (d & Ed & _). apply OLD in Ed. tauto. }
      pose proof (b_recd _ _ _ _ s T B) as RD.
      assert (R1 : forall w, 0 <= w <= NV -> NoDup (upd1 (brec s) (fst a) (n :: brec s (fst a)) w)).
      { intros w Hw. destruct (Z.eq_dec w (fst a)) as [->|Na].
        - rewrite upd1_same. constructor; auto.
        - rewrite upd1_other by auto. auto. }
      destruct CASE as [(EL0 & EL1)|(EL0 & EL1)]; rewrite EL0; [|auto]. destruct (Hb EL1) as (_ & Nab & _).
      destruct (Z.eq_dec u (fst b)) as [->|Nb].
      + rewrite upd1_same. constructor; auto. rewrite upd1_other by auto. auto.
      + rewrite upd1_other by auto. auto.
    - intros m d k Em Ld Hk. rewrite ELV in Hk. rewrite CUTl by lia. rewrite EW0, EW1. apply NEW in Em.
      destruct Em as [(Nm & Em)|(-> & ->)].
      + rewrite !updn_other by auto. apply (b_cuts _ _ _ _ s T B m d); auto. lia.
      + rewrite !updn_same. destruct (Hb Ld) as (Hb1 & _). apply (good_nf NV F DM M).
        * intro H. apply NFa. apply (false_cut NV F (bcl s) k); auto. lia.
        * destruct (OLq b Hb1) as (_ & Z1 & Z2). rewrite (node_cut NV F (bcl s) T b k OK (FQ b Hb1) Z1 Z2).
          rewrite (LEV2 Ld) in Hk. lia.
    - rewrite ESC. auto. }
  assert (TOP : lev = toplev T').
  { unfold T'. destruct (Nat.eq_dec (length q) 1) as [L|L].
    - rewrite (LEV1 L). pose proof (toplev_bound NV F (bcl s) (cut 0 T) (cut_ok NV F _ 0 T OK)) as TB.
      destruct (cut 0 T) as [|(u, y) T2] eqn:E0; [auto|]. assert (Hi : In (u, y) (cut 0 T)) by (rewrite E0; left; auto).
      apply filter_In in Hi. destruct Hi as (_ & Hi). apply Z.leb_le in Hi. cbn [toplev snd] in *. lia.
    - symmetry. destruct (NSb L) as (T1 & T2 & Es).
      apply (cut_toplev NV F (bcl s) lev T (fst b, nodeL T b)); auto.
      + rewrite Es at 2. apply in_or_app. right. left. auto.
      + cbn [snd]. symmetry. auto. }
  exists (S N), s3, lev, n, q. split; [|split; [|split]].
  - intros fuel Hf. unfold bconflict. rewrite (bget_ok s (bcc s) c Ec). cbn [bind].
    rewrite HA by lia. rewrite EL. cbn [bind]. fold s1.
    assert (ELEV : (if Nat.ltb 1 (length q) then let* x0 := bnode_of s1 b in Ok (nlev x0) else Ok 0) = Ok lev).
    { destruct (Nat.eq_dec (length q) 1) as [EL1|EL1]; [rewrite (LEV1 EL1), EL1; auto|]. rewrite (LEV2 EL1).
      destruct (Hb EL1) as (Hb1 & _). apply LB in EL1. rewrite EL1.
      change (bnode_of s1 b) with (bnode_of s b). rewrite (node_of_ok s T b B (OLq b Hb1)). auto. }
    rewrite ELEV. cbn [bind].
    match goal with |- (if ?x =? rc then _ else _) = _ => change x with (bback s + 1) end.
    destruct (Z.eqb_spec (bback s + 1) rc); [congruence|].
    match goal with |- context [pred (length (bcl ?y))] => change (bcl y) with (bcl s ++ [q]) end.
    rewrite app_length. cbn [length]. rewrite Nat.add_1_r. reflexivity.
  - split; [auto|]. split; [rewrite ELV; exact TOP|]. split; [unfold s3; rewrite EU; reflexivity|].
    assert (EUL : bulist s3 = [n]) by (unfold s3; rewrite EU; reflexivity). rewrite EUL. split; [|split].
    + intros m d Em Ld. rewrite EW0, EW1. apply NEW in Em. destruct Em as [(Nm & Em)|(-> & ->)].
      * rewrite !updn_other by auto. split; [intros [->|[]]; congruence|]. left.
        apply (b_cuts _ _ _ _ s T B m d); auto. lia.
      * rewrite !updn_same. destruct (Hb Ld) as (_ & _ & _ & HF).
        assert (HF' : forall l, In l q -> l <> a -> falseL F T' l) by (unfold T'; rewrite (LEV2 Ld); auto).
        split; [intros _; exists a; auto|]. right. split; [left; auto|]. exists a. auto.
    + destruct (Nat.eq_dec (length q) 1) as [L|L].
      * right. exists n. split; auto. split; [exists q; auto|]. rewrite EW0, updn_same. split; auto.
        intros m Nm d Em Ld. rewrite EW0, updn_other by auto. apply NEW in Em.
        destruct Em as [(_ & Em)|(Em & _)]; [|congruence]. apply (HFIX m d); auto.
      * left. intros m d Em Ld. apply NEW in Em. destruct Em as [(Nm & Em)|(_ & ->)]; [|congruence].
        rewrite EW0, updn_other by auto. apply (HFIX m d); auto.
    + intros m [<-|[]]. rewrite ECL, app_length. simpl. unfold n. lia.
  - intros Hlev m d l Em Ld Hl. rewrite ELV in Hlev. rewrite CUTl by lia. apply NEW in Em.
    destruct Em as [(Nm & Em)|(_ & ->)]; [apply (FX LP m d); auto|]. rewrite (LEV1 Ld) in Hlev. lia.
  - rewrite EW0, updn_same. assert (HLN : learnt s T q a b) by exact HL. unfold s3. rewrite EU. cbn.
    repeat (split; [solve [auto|lia]|]). split; [eauto|]. exists b. auto.
Qed.

End Learn.
