(** * The second solver with several clauses about one variable only *)

From Verif Require Import Spec Outcome State ModelSearch ModelHeur ModelBuild ModelBit BitSpec Base Scores BitTrail BitInv BitLearn BitLoop BitBuild.

Section Many.
Variable NV : Z.
Variable F : Z -> Z.
Variable DM : Z -> Z.
Variable M : (Z -> Z) -> Prop.
Hypothesis F_ne : forall v, 1 <= v <= NV -> exists i, inn i (F v).
Hypothesis F_64 : forall v i, 1 <= v <= NV -> inn i (F v) -> i < max_domain.
Hypothesis M_F : forall a v, M a -> 1 <= v <= NV -> inn (a v) (F v).

Notation base := (base NV F DM M).
Notation okL := (okL NV F).
Notation calm := (calm NV F DM M).
Notation two := (two F).
Notation conflict := (conflict F).
Notation new_node := BitInv.new_node.

(** The second watched literal of a clause with one literal is not set. *)
Definition w1no (s : bst) : Prop :=
  forall n c, nth_error (bcl s) n = Some c -> length c = 1%nat -> fst (bw1 s n) = -1.

(** Clauses with one literal that are not yet true wait in the queue. *)
Definition wait (X : list nat) (s : bst) (T : trail) : Prop :=
  forall m c, nth_error (bcl s) m = Some c -> length c = 1%nat ->
    trueL F T (bw0 s m) \/ In m (X ++ bulist s) /\ ~ falseL F T (bw0 s m).

Definition calmW (s : bst) (T : trail) : Prop :=
  base s T /\ blevel s = toplev T /\ bconf s = false /\ (forall n, two (bulist s) T s n) /\ wait [] s T /\ w1no s /\
  forall n, In n (bulist s) -> (n < length (bcl s))%nat.

Definition clashW (s : bst) (T : trail) : Prop :=
  base s T /\ blevel s = toplev T /\ bconf s = true /\ conflict s T.

Lemma no_second s n c : w1no s -> nth_error (bcl s) n = Some c -> length c = 1%nat ->
  bsat s (bw1 s n) = Undef OobAtom.
Proof. intros W E L. unfold bsat, bvar. rewrite (W n c E L). reflexivity. Qed.

Lemma update_any X v x T ns : let T' := (v, x) :: T in forall s,
  base s T' -> blevel s = nlev x -> bconf s = false -> w1no s -> NoDup ns ->
  (forall n, In n ns -> In n (brec s v) /\ two (X ++ bulist s) T s n) ->
  (forall n, ~ In n ns -> two (X ++ bulist s) T' s n) ->
  bupdate v ns s = Undef OobAtom \/
  exists s', bupdate v ns s = Ok s' /\ keep s s' /\ base s' T' /\
    (forall m, In m (bulist s') -> In m (bulist s) \/ (m < length (bcl s))%nat) /\
    (forall m, In m (bulist s) -> In m (bulist s')) /\ w1no s' /\
    (forall m c, nth_error (bcl s) m = Some c -> length c = 1%nat -> bw0 s' m = bw0 s m) /\
    (bconf s' = false /\ (forall n, two (X ++ bulist s') T' s' n) /\
       (forall n c, In n ns -> nth_error (bcl s) n = Some c -> length c = 1%nat -> trueL F T' (bw0 s n)) \/
     bconf s' = true /\ conflict s' T').
Proof.
  intro T'. induction ns as [|n ns IH]; intros s B LV CF W1 ND HI HO.
  - right. exists s. split; [reflexivity|]. split; [apply keep_refl|]. do 5 (split; [auto|]).
    left. split; [auto|]. split; [auto|]. intros n c [].
  - cbn [bupdate]. rewrite CF. inversion ND as [|? ? ND1 ND2]; subst.
    destruct (HI n (or_introl eq_refl)) as (Hn1 & Hn2).
    assert (Hv : 0 <= v <= NV) by (destruct (b_ok _ _ _ _ s T' B) as ((Q & _) & _); lia).
    pose proof Hn1 as Hr. apply (b_rec _ _ _ _ s T' B v n Hv) in Hr. destruct Hr as (c & Ec & _).
    assert (Lc : (n < length (bcl s))%nat) by (apply nth_error_Some; congruence).
    destruct (Nat.eq_dec (length c) 1) as [L1|L1].
    + destruct (watch_lits NV F DM M s T' n c B Ec) as (WA & OA & _).
      assert (VT : trueL F T' (bw0 s n) \/ bvisit v n s = Undef OobAtom).
      { unfold bvisit. rewrite (bget_ok s n c Ec). cbn [bind].
        destruct (bsat_cases NV F DM M F_ne s T' (bw0 s n) B (proj1 OA)) as [(-> & H & _)|[(-> & _)|(-> & _)]]; [left; exact H| |];
          right; cbn [bind]; rewrite (no_second s n c) by auto; reflexivity. }
      destruct VT as [Ht| ->]; [|left; reflexivity].
      assert (EV : bvisit v n s = Ok s).
      { unfold bvisit. rewrite (bget_ok s n c Ec). cbn [bind].
        destruct (bsat_cases NV F DM M F_ne s T' (bw0 s n) B (proj1 OA)) as [(-> & _)|[(_ & _ & H)|(_ & H & _)]]; [reflexivity|tauto|tauto]. }
      rewrite EV. cbn [bind].
      destruct (IH s) as [IHU|(s' & E' & K' & B' & U' & I' & W' & O' & R')]; auto.
      { intros m Hm. apply HI. right. auto. }
      { intros m Hm. destruct (Nat.eq_dec m n) as [->|N]; [|apply HO; intros [|]; auto].
        intros d Ed Ld. assert (d = c) by congruence. subst. congruence. }
      right. exists s'. do 7 (split; [auto|]). destruct R' as [(C' & T1 & S1)|R']; [left|right; auto].
      split; [auto|]. split; [auto|]. intros m d [<-|Hm] Em Lm; [exact Ht|eauto].
    + destruct (visit_ok NV F DM M F_ne (fun _ => False) X s T v x n B LV CF) as (s1 & E1 & K1 & B1 & O1 & U1 & _ & R1); auto.
      { intros m []. }
      { intros d Ed Ld. assert (d = c) by congruence. subst. congruence. }
      assert (CL1 : bcl s1 = bcl s) by apply K1.
      assert (U1' : forall m, In m (bulist s1) -> In m (bulist s) \/ (m < length (bcl s))%nat).
      { intros m Hm. destruct U1 as [U1|U1]; rewrite U1 in Hm; auto. destruct Hm as [<-|]; auto. }
      assert (I1 : forall m, In m (bulist s) -> In m (bulist s1)).
      { intros m Hm. destruct U1 as [U1|U1]; rewrite U1; simpl; auto. }
      assert (OS : forall m d, nth_error (bcl s) m = Some d -> length d = 1%nat -> bw0 s1 m = bw0 s m /\ bw1 s1 m = bw1 s m).
      { intros m d Em Lm. apply O1. intros ->. congruence. }
      assert (W1' : w1no s1).
      { intros m d Em Lm. rewrite CL1 in Em. destruct (OS m d Em Lm) as (_ & ->). apply (W1 m d); auto. }
      rewrite E1. cbn [bind]. destruct R1 as [(C1 & T1)|(C1 & T1)].
      * destruct (IH s1) as [IHU|(s2 & E2 & K2 & B2 & U2 & I2 & W2 & O2 & R2)]; auto.
        -- destruct K1 as (_ & -> & _). auto.
        -- intros m Hm. assert (N : m <> n) by congruence. destruct (O1 m N) as (Q0 & Q1).
           destruct (HI m (or_intror Hm)) as (Hm1 & Hm2). split.
           ++ apply (b_rec _ _ _ _ s1 T' B1 v m Hv). apply (b_rec _ _ _ _ s T' B v m Hv) in Hm1.
              destruct Hm1 as (d & Ed & Hd). exists d. rewrite CL1. split; auto. rewrite Q0, Q1. auto.
           ++ apply (two_grow NV F DM M X (bulist s) _ n); auto. apply (two_eq F _ _ s); auto.
        -- intros m Hm. destruct (Nat.eq_dec m n) as [->|N]; auto.
           destruct (O1 m N) as (Q0 & Q1). apply (two_grow NV F DM M X (bulist s) _ n); auto. apply (two_eq F _ _ s); auto.
           apply HO. intros [|]; auto.
        -- right. exists s2. split; [auto|]. split; [eapply keep_trans; eauto|]. split; [auto|].
           split; [intros m Hm; destruct (U2 m Hm) as [|Hm2]; [auto|right; congruence]|].
           split; [auto|]. split; [auto|]. split.
           { intros m d Em Lm. rewrite (O2 m d) by (auto; congruence). apply (OS m d); auto. }
           destruct R2 as [(C2 & T2 & S2)|R2]; [left|right; auto]. split; [auto|]. split; [auto|].
           intros m d [<-|Hm] Em Lm; [congruence|]. destruct (OS m d Em Lm) as (<- & _). apply (S2 m d); auto. congruence.
      * right. exists s1. split; [destruct ns; cbn [bupdate]; auto; rewrite C1; auto|].
        do 5 (split; [auto|]). split; [|right; auto]. intros m d Em Lm. apply (OS m d); auto.
Qed.

Lemma reduce_any X s T l : let T' := (fst l, new_node s l) :: T in
  base s T -> 1 <= fst l <= NV -> ~ trueL F T l -> ~ falseL F T l -> cause F s T l -> bconf s = false ->
  (forall n, two (X ++ bulist s) T s n) -> wait X s T -> w1no s ->
  breduce s l = Undef OobAtom \/
  exists s', breduce s l = Ok s' /\ keep s s' /\ base s' T' /\
    (forall m, In m (bulist s') -> In m (bulist s) \/ (m < length (bcl s))%nat) /\ w1no s' /\
    (forall m c, nth_error (bcl s) m = Some c -> length c = 1%nat -> bw0 s' m = bw0 s m) /\
    (bconf s' = false /\ (forall n, two (X ++ bulist s') T' s' n) /\ wait X s' T' /\
      (forall m c, nth_error (bcl s) m = Some c -> length c = 1%nat -> fst (bw0 s m) = fst l -> trueL F T' (bw0 s m)) \/
     bconf s' = true /\ conflict s' T').
Proof.
  intros T' B Hl Nt Nf Ca CF TW WA W1.
  pose proof (new_node_ok NV F DM M s T l B Hl Nt Nf Ca) as ON'. unfold breduce.
  rewrite (bvar_ok NV F DM M s T) by (auto; lia). cbn [bind].
  assert (NZ : Z.ldiff (bcur s (fst l)) (snd l) <> 0) by apply ON'.
  destruct (Z.eqb_spec (Z.ldiff (bcur s (fst l)) (snd l)) 0) as [E|_]; [congruence|].
  fold (new_node s l). cbn [set_baix set_bnodes set_bcur baix blevel buc bcur brec bnodes].
  match goal with |- context [bupdate _ _ ?x] => set (s1 := x) end.
  assert (B1 : base s1 T').
  { pose proof (b_cur _ _ _ _ s T B) as BC. destruct B. subst s1. constructor; cbn -[proj cut D okT length]; auto.
    - intros v Hv. unfold T'. cbn [D]. destruct (Z.eqb_spec (fst l) v) as [<-|N].
      + rewrite upd1_same. apply inn_ext. intro i. rewrite inn_land, inn_ldiff. cbn [new_node nvals]. rewrite inn_ldiff.
        rewrite BC by lia. destruct (inn_dec i (snd l)); tauto.
      + rewrite upd1_other by auto. auto.
    - intro v. unfold T'. rewrite proj_cons. destruct (Z.eqb_spec (fst l) v) as [<-|N].
      + rewrite upd1_same. f_equal; auto.
      + rewrite upd1_other by auto. auto.
    - unfold T'. cbn [length]. rewrite b_aix. lia.
    - split; auto.
    - intros n c k En Lc Hk. unfold T'. rewrite cut_cons; [|cbn; lia]. eauto. }
  destruct (update_any X (fst l) (new_node s l) T (brec s (fst l)) s1) as [HU|(s2 & E2 & K2 & B2 & U2 & I2 & W2 & O2 & R2)]; auto.
  - apply (b_recd _ _ _ _ s T B); lia.
  - intros n Hn. split; auto.
    apply (two_eq F _ _ s); auto.
  - intros n Hn. apply (two_eq F _ _ s); auto. intros c Ec Lc. fold T'.
    assert (NR : fst (bw0 s n) <> fst l /\ fst (bw1 s n) <> fst l).
    { split; intro Ef; apply Hn; apply (b_rec _ _ _ _ s T B); try lia; exists c; auto. }
    destruct NR as (N0 & N1).
    destruct (TW n c Ec Lc) as (SEM & G). split; [intro Hn'; apply (semi_app F [(fst l, new_node s l)]); auto|].
    destruct G as [G|(G1 & w & Gw & Gn & Ga)].
    + left. destruct G as (G1 & G2). unfold good, T'. rewrite !false_other, !true_other by auto. auto.
    + right. split; auto. exists w. split; auto. split.
      * unfold T'. rewrite false_other; auto. destruct Gw as [-> | ->]; auto.
      * intros l' H1 H2. apply (false_app F [(fst l, new_node s l)]). auto.
  - right. exists s2. split; [auto|]. split; [destruct K2 as (K2 & K3); split; auto|]. do 4 (split; [auto|]).
    destruct R2 as [(C2 & T2 & S2)|R2]; [left|right; auto].
    assert (VIS : forall m c, nth_error (bcl s) m = Some c -> length c = 1%nat -> fst (bw0 s m) = fst l -> trueL F T' (bw0 s m)).
    { intros m c Em Lm Ef. apply (S2 m c); auto. apply (b_rec _ _ _ _ s T B); [lia|]. exists c. auto. }
    split; [auto|]. split; [auto|]. split; [|auto].
    intros m c Em Lm. assert (CL : bcl s2 = bcl s) by (destruct K2 as (-> & _); reflexivity). rewrite CL in Em.
    rewrite (O2 m c) by auto. change (bw0 s1 m) with (bw0 s m).
    destruct (WA m c Em Lm) as [Ht|(Hm & Nm)]; [left; apply (true_app F [(fst l, new_node s l)]); auto|].
    destruct (Z.eq_dec (fst (bw0 s m)) (fst l)) as [Ef|Nf']; [left; eauto|].
    right. unfold T'. rewrite false_other by auto. split; [|auto].
    apply in_app_or in Hm. apply in_or_app. destruct Hm as [Hm|Hm]; [auto|right]. apply I2. exact Hm.
Qed.

Definition ends_any (s : bst) (T : trail) : Prop :=
  exists N, (forall fuel, (N <= fuel)%nat -> bprop fuel s = Undef OobAtom) \/
    exists s' pre, (forall fuel, (N <= fuel)%nat -> bprop fuel s = Ok s') /\ keepP s s' /\
      (forall e, In e pre -> nlev (snd e) = blevel s) /\ bulist s' = [] /\
      (calm s' (pre ++ T) \/ clashW s' (pre ++ T)).

Lemma prop_any k : forall U s T, (sizeT NV F T <= k)%nat -> bulist s = U -> calmW s T -> ends_any s T.
Proof.
  induction k as [k IHk] using lt_wf_ind. induction U as [|n rest IHU]; intros s T Hk EU C.
  - destruct C as (B & LV & CF & TW & WA & W1 & ID). exists 1%nat. right. exists s, []. split.
    { intros fuel Hf. destruct fuel; [lia|]. cbn [bprop]. rewrite CF, EU. auto. }
    split; [apply (keepP_refl NV F DM M)|]. split; [intros e []|]. split; [auto|].
    left. do 4 (split; [auto|]). split; [|auto]. left. intros m c Em Lm.
    destruct (WA m c Em Lm) as [|(Hm & _)]; auto. rewrite EU in Hm. destruct Hm.
  - pose proof C as (B & LV & CF & TW & WA & W1 & ID). rewrite EU in TW, ID.
    destruct (lt_nth_error (bcl s) n (ID n (or_introl eq_refl))) as (c & E).
    set (s0 := set_bulist (set_buc s (Some n)) rest).
    assert (B0 : base s0 T) by (apply base_ul, base_uc; auto).
    assert (K0 : keepP s s0) by (unfold keepP; cbn; tauto).
    destruct (watch_lits NV F DM M s T n c B E) as (WAn & OA & WB).
    assert (STEP : forall f, bprop (S f) s =
      let* x := bsat s0 (bw0 s0 n) in
      match x with
      | SatUn => let* s := breduce s0 (bw0 s0 n) in bprop f (set_bunits s (bunits s + 1))
      | _ => if Nat.ltb 1 (length c) then
               let* y := bsat s0 (bw1 s0 n) in
               match y with
               | SatUn => let* s := breduce s0 (bw1 s0 n) in bprop f (set_bunits s (bunits s + 1))
               | _ => bprop f s0
               end
             else bprop f s0
      end).
    { intro f. cbn [bprop]. rewrite CF, EU. fold s0. rewrite (bget_ok s0 n c E). reflexivity. }
    assert (SKIP : (forall f, bprop (S f) s = bprop f s0) -> calmW s0 T -> ends_any s T).
    { intros E1 C0. destruct (IHU s0 T Hk eq_refl C0) as (N & [R|(s' & pre & R & K & LVp & U' & FIN)]); exists (S N).
      - left. intros fuel Hf. destruct fuel; [lia|]. rewrite E1. apply R. lia.
      - right. exists s', pre. split; [intros fuel Hf; destruct fuel; [lia|]; rewrite E1; apply R; lia|].
        split; [apply (keepP_trans NV F DM M s s0); [exact K0|exact K]|]. split; [exact LVp|]. auto. }
    assert (WA0 : wait [n] s0 T).
    { intros m d Em Lm. destruct (WA m d Em Lm) as [|(Hm & Nm)]; auto. right. rewrite EU in Hm. split; auto. }
    assert (W10 : w1no s0) by (intros m d Em Lm; apply (W1 m d); auto).
    assert (DO : forall l, In l c -> okL l -> ~ trueL F T l -> ~ falseL F T l ->
       (forall l', In l' c -> l' <> l -> falseL F T l') -> (length c = 1%nat -> l = bw0 s n) ->
       (forall f, bprop (S f) s = let* s := breduce s0 l in bprop f (set_bunits s (bunits s + 1))) -> ends_any s T).
    { intros l Hl OL Nt Nf Hall H1 E1.
      pose proof (proj1 OL) as Rl.
      assert (CA : cause F s0 T l).
      { unfold cause. cbn. split; [auto|]. exists c. auto. }
      set (T' := (fst l, new_node s0 l) :: T).
      destruct (reduce_any [n] s0 T l B0 Rl Nt Nf CA CF TW WA0 W10) as [E2|(s1 & E2 & K1 & B1 & U1 & W11 & O1 & R1)].
      { exists 1%nat. left. intros fuel Hf. destruct fuel; [lia|]. rewrite E1, E2. reflexivity. }
      fold T' in B1, R1.
      assert (CL : bcl s1 = bcl s) by (destruct K1 as (-> & _); reflexivity).
      assert (K1' : keepP s (set_bunits s1 (bunits s1 + 1))).
      { apply (keepP_trans NV F DM M s s0); auto. apply (keepP_trans NV F DM M s0 s1); [apply (keep_P NV F DM M); auto|]. unfold keepP; cbn; tauto. }
      assert (Hid : forall m, In m (bulist s1) -> (m < length (bcl s1))%nat).
      { rewrite CL. intros m Hm. destruct (U1 m Hm) as [Hm1|]; auto. apply ID. right. auto. }
      assert (TOP : blevel s1 = toplev T').
      { destruct K1 as (_ & -> & _). reflexivity. }
      pose proof (new_node_ok NV F DM M s0 T l B0 Rl Nt Nf CA) as HN.
      pose proof (size_cons NV F F_64 (bcl s0) T (fst l) (new_node s0 l) HN) as SZ. fold T' in SZ.
      destruct R1 as [(C1 & T1 & WA1 & VI)|(C1 & T1)].
      - set (s2 := set_bunits s1 (bunits s1 + 1)).
        assert (Cs2 : calmW s2 T').
        { split; [apply base_units; auto|]. split; [auto|]. split; [auto|]. split; [|split; [|split; [exact W11|exact Hid]]].
          - intros m d Ed Ld. cbn in Ed. destruct (T1 m d Ed Ld) as (SEM & G). cbn. split.
            { intro Hm. apply SEM. right. auto. }
            destruct G as [G|(Gm & G)]; auto. destruct Gm as [<-|Gm]; [|auto]. left.
            assert (d = c) by congruence. subst d.
            apply (pend_true NV F DM M F_ne (bcl s1) T' c _ _ l); auto; [apply (b_ok _ _ _ _ s1 T' B1)|].
            apply (new_node_true NV F DM M s0 T l); auto.
          - intros m d Em Lm. cbn in Em. cbn. destruct (WA1 m d Em Lm) as [|(Hm & Nm)]; [auto|].
            destruct Hm as [<-|Hm]; [left|auto].
            assert (d = c) by congruence. subst d. rewrite (O1 n c) by auto. apply (VI n c); auto.
            change (bw0 s0 n) with (bw0 s n). rewrite <- H1 by auto. reflexivity. }
        destruct (IHk (sizeT NV F T') ltac:(lia) (bulist s2) s2 T' (le_n _) eq_refl Cs2) as (N & [R|(s' & pre & R & K & LVp & U' & FIN)]);
          exists (S N).
        { left. intros fuel Hf. destruct fuel; [lia|]. rewrite E1, E2. cbn [bind]. apply R. lia. }
        right. exists s', (pre ++ [(fst l, new_node s0 l)]). split.
        { intros fuel Hf. destruct fuel; [lia|]. rewrite E1, E2. cbn [bind]. apply R. lia. }
        split; [apply (keepP_trans NV F DM M s s2); [exact K1'|exact K]|]. split.
        { intros e He. apply in_app_or in He. destruct He as [He|[<-|[]]].
          - rewrite (LVp e He). destruct K1' as (_ & K1' & _). exact K1'.
          - reflexivity. }
        split; [auto|]. rewrite <- app_assoc. cbn [app]. fold T'. auto.
      - exists 2%nat. right. exists (set_bulist (set_bunits s1 (bunits s1 + 1)) []), [(fst l, new_node s0 l)]. split.
        { intros fuel Hf. destruct fuel as [|[|f]]; try lia. rewrite E1, E2. cbn [bind]. cbn [bprop].
          cbn [set_bunits bconf]. rewrite C1. reflexivity. }
        split; [eapply (keepP_trans NV F DM M); [exact K1'|unfold keepP; cbn; tauto]|]. split.
        { intros e [<-|[]]. reflexivity. }
        split; [auto|]. right. cbn [app]. fold T'.
        split; [apply base_ul, base_units; auto|]. split; [auto|]. split; [auto|exact T1]. }
    assert (IDr : forall m, In m rest -> (m < length (bcl s))%nat) by (intros m Hm; apply ID; right; auto).
    assert (TWm : forall m, m <> n -> two rest T s m).
    { intros m Hm. apply (two_set F (n :: rest)); auto. simpl. intuition congruence. }
    destruct (Nat.eq_dec (length c) 1) as [L1|L1].
    + assert (TWn : forall m, two rest T s m).
      { intro m. destruct (Nat.eq_dec m n) as [->|Nm]; auto. intros d Ed Ld. assert (d = c) by congruence. subst. congruence. }
      assert (NTN : Nat.ltb 1 (length c) = false) by (rewrite L1; auto).
      destruct (bsat_cases NV F DM M F_ne s0 T (bw0 s n) B0 (proj1 OA)) as [(ES & Ht & Nf)|[(ES & Hf & Nt)|(ES & Nt & Nf)]].
      * apply SKIP; auto.
        { intro f. rewrite STEP. change (bw0 s0 n) with (bw0 s n). rewrite ES. cbn [bind]. rewrite NTN. auto. }
        split; [auto|]. split; [auto|]. split; [auto|]. split; [exact TWn|]. split; [|split; [exact W10|exact IDr]].
        intros m d Em Lm. destruct (WA0 m d Em Lm) as [|([<-|Hm] & Nm)]; auto.
      * exfalso. destruct (WA n c E L1) as [|(_ & Hn)]; auto.
      * apply (DO (bw0 s n)); auto.
        { intros l' Hl' N'. exfalso. apply N'. destruct c as [|y [|z c]]; simpl in L1; try discriminate.
          destruct WAn as [<-|[]], Hl' as [<-|[]]. auto. }
        { intro f. rewrite STEP. change (bw0 s0 n) with (bw0 s n). rewrite ES. reflexivity. }
    + destruct (WB L1) as (WB1 & OB & NAB).
      assert (NTN : Nat.ltb 1 (length c) = true).
      { apply Nat.ltb_lt. destruct c as [|y [|z c]]; simpl in *; [tauto|lia|lia]. }
      destruct (TW n c E L1) as (SEM & GP). destruct (SEM (or_introl eq_refl)) as (w & Hw & Hall).
      assert (DROP : (trueL F T (bw0 s n) \/ falseL F T (bw0 s n)) -> (trueL F T (bw1 s n) \/ falseL F T (bw1 s n)) -> calmW s0 T).
      { intros HA HB. split; [auto|]. split; [auto|]. split; [auto|]. split; [|split; [|split; [exact W10|exact IDr]]].
        - intro m. destruct (Nat.eq_dec m n) as [->|Nm]; [|apply TWm; auto].
          intros d Ed Ld. cbn in Ed. assert (d = c) by congruence. subst d. split.
          { intros _. exists w. auto. }
          left. cbn. destruct GP as [|(_ & GP)]; auto. destruct GP as (w' & Hw' & Nw' & Hall').
          assert (Q : In w' c /\ okL w' /\ trueL F T w') by (destruct Hw' as [-> | ->]; tauto).
          apply (pend_true NV F DM M F_ne (bcl s) T c _ _ w'); try apply Q; [apply (b_ok _ _ _ _ s T B)|exists w'; auto].
        - intros m d Em Lm. destruct (WA0 m d Em Lm) as [|([<-|Hm] & Nm)]; auto.
          cbn in Em. assert (d = c) by congruence. subst. congruence. }
      assert (OW : forall l, In l c -> ~ falseL F T l -> l = w).
      { intros l Hl Nf. destruct (blit_eq_dec l w); auto. exfalso. auto. }
      destruct (bsat_cases NV F DM M F_ne s0 T (bw0 s n) B0 (proj1 OA)) as [(ES & H1 & H2)|[(ES & H1 & H2)|(ES & Nt & Nf)]].
      * destruct (bsat_cases NV F DM M F_ne s0 T (bw1 s n) B0 (proj1 OB)) as [(ES' & H3 & H4)|[(ES' & H3 & H4)|(ES' & Nt & Nf)]].
        -- apply SKIP; auto. intro f. rewrite STEP. change (bw0 s0 n) with (bw0 s n). change (bw1 s0 n) with (bw1 s n).
           rewrite ES. cbn [bind]. rewrite NTN, ES'. reflexivity.
        -- apply SKIP; auto. intro f. rewrite STEP. change (bw0 s0 n) with (bw0 s n). change (bw1 s0 n) with (bw1 s n).
           rewrite ES. cbn [bind]. rewrite NTN, ES'. reflexivity.
        -- exfalso. apply NAB. f_equal. rewrite (OW (bw0 s n)), (OW (bw1 s n)) by auto. auto.
      * destruct (bsat_cases NV F DM M F_ne s0 T (bw1 s n) B0 (proj1 OB)) as [(ES' & H3 & H4)|[(ES' & H3 & H4)|(ES' & Nt & Nf)]].
        -- apply SKIP; auto. intro f. rewrite STEP. change (bw0 s0 n) with (bw0 s n). change (bw1 s0 n) with (bw1 s n).
           rewrite ES. cbn [bind]. rewrite NTN, ES'. reflexivity.
        -- apply SKIP; auto. intro f. rewrite STEP. change (bw0 s0 n) with (bw0 s n). change (bw1 s0 n) with (bw1 s n).
           rewrite ES. cbn [bind]. rewrite NTN, ES'. reflexivity.
        -- apply (DO (bw1 s n)); auto.
           ++ rewrite (OW (bw1 s n)) by auto. auto.
           ++ congruence.
           ++ intro f. rewrite STEP. change (bw0 s0 n) with (bw0 s n). change (bw1 s0 n) with (bw1 s n).
              rewrite ES. cbn [bind]. rewrite NTN, ES'. reflexivity.
      * apply (DO (bw0 s n)); auto.
        -- rewrite (OW (bw0 s n)) by auto. auto.
        -- intro f. rewrite STEP. change (bw0 s0 n) with (bw0 s n). rewrite ES. reflexivity.
Qed.

Lemma refutedW s T a : clashW s T -> blevel s = 0 -> M a -> False.
Proof.
  intros (B & LV & _ & (c & v & x & T0 & _ & Ec & _ & Fc & _)) L0 HM.
  destruct (b_cls _ _ _ _ s T B _ _ Ec) as (_ & _ & OL & HB). destruct (HB a HM) as (l & Hl & Ha).
  apply (Fc l Hl _ Ha). apply (level0 NV F M M_F (bcl s) a T); auto.
  - apply (b_ok _ _ _ _ s T B).
  - lia.
  - apply (b_cls _ _ _ _ s T B).
  - apply (OL l Hl).
Qed.

(** ** The loop *)

Hypothesis NV_nonneg : 0 <= NV.
Hypothesis F_0 : F 0 = 0.
Hypothesis F_DM : forall v i, 1 <= v <= NV -> inn i (F v) -> i < DM v.
Hypothesis DM_64 : forall v, 1 <= v <= NV -> DM v <= max_domain.
Variable cl0 : list bclause.
Variable cf : bcfg.
Variable clk : nat -> bool.
Variable r : Z.
Hypothesis LEN : blen cf = true.
Hypothesis R0 : r <= 0.

Lemma tick_tick s k : set_btick (set_btick s k) (btick s) = s.
Proof. destruct s. reflexivity. Qed.

Lemma calm_level s T : calm s T -> blevel s = 0 -> fixed F s T.
Proof. intros _ E H. lia. Qed.

Lemma loop_any s : calmW s [] -> bcl s = cl0 -> bback s = 0 -> brest s = 0 ->
  exists N, (forall fuel, (N <= fuel)%nat -> bloop fuel cf clk r r s = Undef OobAtom) \/
    exists v s', (forall fuel, (N <= fuel)%nat -> bloop fuel cf clk r r s = Ok (v, s')) /\ Fin NV F DM M cl0 clk v s'.
Proof.
  intros C ECL EB ER. pose proof C as (B & LV & CF & _). cbn in LV.
  destruct (clk (btick s)) eqn:CK.
  { exists 1%nat. right. exists TIMEOUT, (set_btick s (S (btick s))). split.
    - intros fuel Hf. destruct fuel; [lia|]. cbn [bloop]. unfold biter. rewrite CK. reflexivity.
    - split; [exists []; split; [apply base_tick; auto|auto]|]. split; [eauto|]. split; [auto|]. exists []. rewrite app_nil_r. auto. }
  set (s0 := set_btick s (S (btick s))).
  assert (C0 : calmW s0 []) by (destruct C as (_ & C); split; [apply base_tick; auto|exact C]).
  assert (PR : exists N, (forall fuel, (N <= fuel)%nat -> match bulist s0 with [] => Ok s0 | _ => bprop fuel s0 end = Undef OobAtom) \/
     exists s' pre, (forall fuel, (N <= fuel)%nat -> match bulist s0 with [] => Ok s0 | _ => bprop fuel s0 end = Ok s') /\ keepP s0 s' /\
       bulist s' = [] /\ (calm s' (pre ++ []) \/ clashW s' (pre ++ []))).
  { destruct (prop_any _ (bulist s0) s0 [] (le_n _) eq_refl C0) as (N & H). destruct (bulist s0) as [|n rest] eqn:EU.
    - exists 0%nat. right. exists s0, []. split; [auto|]. split; [apply (keepP_refl NV F DM M)|]. split; [auto|]. left.
      destruct C0 as (B0 & LV0 & CF0 & TW0 & WA0 & _ & ID0). do 4 (split; [auto|]). split; [|auto]. left. intros m c Em Lm.
      destruct (WA0 m c Em Lm) as [|(Hm & _)]; auto. rewrite EU in Hm. destruct Hm.
    - exists N. destruct H as [H|(s' & pre & H1 & H2 & _ & H3 & H4)]; [left; auto|right]. exists s', pre. auto. }
  destruct PR as (N & [H|(s' & pre & H & K & U' & FIN)]).
  { exists (S N). left. intros fuel Hf. destruct fuel as [|f]; [lia|]. cbn [bloop]. unfold biter. rewrite CK. fold s0.
    change (bconf s0) with (bconf s). rewrite CF. cbn [andb bind]. rewrite (H (S f)) by lia. reflexivity. }
  destruct K as (K1 & K2 & K3 & K4 & K5 & K6 & K7). rewrite app_nil_r in FIN.
  change (bcl s0) with (bcl s) in K1. change (blevel s0) with (blevel s) in K2. change (bback s0) with (bback s) in K4.
  change (brest s0) with (brest s) in K6. change (btick s0) with (S (btick s)) in K7.
  destruct FIN as [C'|C'].
  - set (s2 := set_btick s' (btick s)).
    assert (HI : Inv NV F DM M cl0 s2 pre).
    { split; [left; apply calm_tick; auto|]. split; [apply (calm_level s2 pre); [apply calm_tick; auto|cbn; congruence]|].
      split; [cbn; congruence|]. exists []. rewrite app_nil_r. cbn. split; congruence. }
    destruct (loop_ok NV F DM M NV_nonneg F_ne F_0 F_DM DM_64 M_F cl0 cf clk r LEN R0 _ s2 pre (le_n _) HI) as (N2 & v & s3 & HL & HF).
    exists (S (Nat.max N N2)). right. exists v, s3. split; [|auto]. intros fuel Hf. rewrite <- (HL fuel) by lia.
    destruct fuel as [|f]; [lia|]. cbn [bloop]. f_equal. unfold biter. cbn [s2 set_btick btick]. rewrite CK. fold s0.
    change (bconf s0) with (bconf s). rewrite CF. cbn [andb bind]. rewrite (H (S f)) by lia. cbn [bind].
    change (mkB _ _ _ _ _ _ _ _ _ _ _ _ _ _ _ _ _ _ _ _) with (set_btick s2 (S (btick s))).
    assert (E2 : set_btick s2 (S (btick s)) = s') by (unfold s2; rewrite <- K7; apply tick_tick).
    rewrite E2. pose proof C' as (_ & _ & CF' & _). rewrite CF'. cbn [andb bind]. rewrite U'. cbn [bind]. rewrite ?CF'. reflexivity.
  - pose proof C' as (B' & LV' & CF' & _). assert (L0 : blevel s' = 0) by congruence.
    assert (IT : forall f, (N <= S f)%nat -> bloop (S f) cf clk r r s = bloop f cf clk r r s').
    { intros f Hf. cbn [bloop]. unfold biter. rewrite CK. fold s0.
      change (bconf s0) with (bconf s). rewrite CF. cbn [andb bind]. rewrite (H (S f)) by lia. cbn [bind]. rewrite CF'. reflexivity. }
    exists (S (S N)). right.
    assert (FB : forall v, match v with SAT => False | UNSAT => forall a, ~ M a | TIMEOUT => exists j, clk j = true end ->
      Fin NV F DM M cl0 clk v (set_btick s' (S (btick s')))).
    { intros v Hv. split; [exists pre; split; [apply base_tick; auto|destruct v; tauto]|]. split; [destruct v; tauto|].
      split; [cbn; congruence|]. exists []. rewrite app_nil_r. cbn. split; congruence. }
    destruct (clk (btick s')) eqn:CK'.
    + exists TIMEOUT, (set_btick s' (S (btick s'))). split; [|apply FB; eauto]. intros fuel Hf. destruct fuel as [|[|f]]; try lia.
      rewrite IT by lia. cbn [bloop]. unfold biter. rewrite CK'. reflexivity.
    + exists UNSAT, (set_btick s' (S (btick s'))). split.
      * intros fuel Hf. destruct fuel as [|[|f]]; try lia.
        rewrite IT by lia. cbn [bloop]. unfold biter. rewrite CK'. cbn [set_btick bconf blevel]. rewrite CF', L0. reflexivity.
      * apply FB. intros a Ha. apply (refutedW s' pre a); auto.
Qed.

End Many.

(** ** From the problem *)

Lemma bump_w1 c s s' : foldM bump_lit c s = Ok s' -> bw1 s' = bw1 s /\ bcl s' = bcl s.
Proof.
  apply (foldM_inv_ok bump_lit (fun x => bw1 x = bw1 s /\ bcl x = bcl s)); auto.
  intros l b1 b2 _ H E. unfold bump_lit in E. apply bind_ok in E. destruct E as (_ & _ & E).
  destruct (_ <? _); [discriminate|]. injection E as <-. exact H.
Qed.

Lemma build_w1 is s : bbuild is = Ok s -> w1no s.
Proof.
  intro E. unfold bbuild in E.
  assert (G : w1no s /\ forall n, (length (bcl s) <= n)%nat -> bw1 s n = bnolit); [|apply G].
  revert E. apply (foldM_inv_ok badd_item (fun s => w1no s /\ forall n, (length (bcl s) <= n)%nat -> bw1 s n = bnolit)).
  - split; [intros n c H; destruct n; discriminate|auto].
  - clear. intros i s s' _ (W & N) E. destruct i as [d|ls]; cbn [badd_item] in E.
    + unfold badd_domain in E. destruct (d <? 0); [discriminate|]. cbv zeta in E.
      repeat match type of E with context [if ?b then _ else _] => destruct b end; try discriminate; injection E as <-; split; auto.
    + unfold badd_clause in E. cbv zeta in E. apply bind_ok in E. destruct E as (c & _ & E).
      apply bind_ok in E. destruct E as (s1 & E1 & E). apply bump_w1 in E1. cbn [set_bcl bw1 bcl] in E1. destruct E1 as (E1 & E2).
      set (n := length (bcl s)) in *.
      set (s2 := if Nat.eqb (length c) 1 then set_bulist s1 (bulist s1 ++ [n]) else s1) in *.
      assert (S2 : bw1 s2 = bw1 s /\ bcl s2 = bcl s ++ [c]) by (unfold s2; destruct (Nat.eqb (length c) 1); cbn; auto).
      clearbody s2. destruct S2 as (S1 & S2). destruct c as [|a c']; [discriminate|].
      apply bind_ok in E. destruct E as (s3 & E3 & E).
      unfold badd_record in E3. apply bind_ok in E3. destruct E3 as (_ & _ & E3).
      assert (S3 : bw1 s3 = bw1 s /\ bcl s3 = bcl s ++ [a :: c']) by (injection E3 as <-; cbn; auto). clear E3.
      assert (CASE : forall m d, nth_error (bcl s ++ [a :: c']) m = Some d -> nth_error (bcl s) m = Some d \/ m = n /\ d = a :: c').
      { intros m d Em. destruct (Nat.lt_ge_cases m n) as [L|L]; [left; rewrite nth_error_app1 in Em; auto|]. right.
        destruct (Nat.eq_dec m n) as [->|X].
        - unfold n in Em. rewrite nth_error_app2, Nat.sub_diag in Em by lia. cbn in Em. split; congruence.
        - exfalso. assert (LL : (m < length (bcl s ++ [a :: c']))%nat) by (apply nth_error_Some; congruence).
          rewrite app_length in LL. cbn in LL. unfold n in *. lia. }
      assert (F : match c' with [] => bw1 s' = bw1 s | b :: _ => bw1 s' = updn (bw1 s) n b end /\ bcl s' = bcl s ++ [a :: c']).
      { destruct c' as [|b c']; [injection E as <-; auto|]. unfold badd_record in E. apply bind_ok in E. destruct E as (_ & _ & E).
        injection E as <-. cbn. destruct S3 as (-> & ->). auto. }
      destruct F as (F1 & F2). split.
      * intros m d Em Lm. rewrite F2 in Em. apply CASE in Em. destruct Em as [Em|(-> & ->)].
        -- assert (m <> n) by (assert (m < n)%nat by (apply nth_error_Some; congruence); lia).
           destruct c'; rewrite F1; [|rewrite updn_other by auto]; apply (W m d); auto.
        -- destruct c' as [|b c']; [|discriminate]. rewrite F1, N by (unfold n; lia). reflexivity.
      * intros m Hm. rewrite F2, app_length in Hm. cbn in Hm.
        destruct c'; rewrite F1; [|rewrite updn_other by (unfold n; lia)]; apply N; lia.
Qed.

Section Problem.
Variable p : problem.
Hypothesis WF : wf p.
Hypothesis SMALL : fits64 p.

Lemma start_any s : bbuild (items_of p) = Ok s -> built p s ->
  calmW (nvars p) (FF p) (domsize p) (MM p) s [].
Proof.
  intros EB [B LV CF BK RS BU BD]. do 3 (split; [auto|]).
  assert (NF : forall n c, nth_error (bcl s) n = Some c -> ~ falseL (FF p) [] (bw0 s n)).
  { intros n c En. destruct (watch_lits _ _ _ _ s [] n c B En) as (_ & H0 & _). eapply false_nil; eauto. }
  split; [|split; [|split; [apply (build_w1 (items_of p)); auto|]]].
  - intros n c En Ln. split.
    + intro Hi. apply BU in Hi. destruct Hi as (d & Ed & Ld). congruence.
    + left. destruct (watch_lits _ _ _ _ s [] n c B En) as (_ & H0 & H1). destruct (H1 Ln) as (_ & H2 & _).
      apply (good_nf (nvars p) (FF p) (domsize p) (MM p)); eapply false_nil; eauto.
  - intros m c Em Lm. right. split; [|eauto]. cbn [app]. apply BU. exists c. auto.
  - intros n Hn. apply BU in Hn. destruct Hn as (c & Ec & _). apply nth_error_Some. congruence.
Qed.
End Problem.
