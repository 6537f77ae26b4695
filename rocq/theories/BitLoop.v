(** * The second solver: the main loop *)

From Coq Require Import Floats.SpecFloat.
From Verif Require Import Spec Outcome State ModelHeur ModelSearch ModelBuild ModelBit Base Scores BitTrail BitInv
  BitResolve BitLearn.

Section Loop.
Variable NV : Z.
Variable F : Z -> Z.
Variable DM : Z -> Z.
Variable M : (Z -> Z) -> Prop.
Hypothesis NV_nonneg : 0 <= NV.
Hypothesis F_ne : forall v, 1 <= v <= NV -> exists i, inn i (F v).
Hypothesis F_0 : F 0 = 0.
Hypothesis F_DM : forall v i, 1 <= v <= NV -> inn i (F v) -> i < DM v.
Hypothesis DM_64 : forall v, 1 <= v <= NV -> DM v <= max_domain.
Hypothesis M_F : forall a v, M a -> 1 <= v <= NV -> inn (a v) (F v).

Notation base := (base NV F DM M).
Notation okL := (okL NV F).
Notation okC := (okC NV F M).
Notation clash := (clash NV F DM M).
Notation calm := (calm NV F DM M).
Notation fixed := (fixed F).
Notation okT := (okT NV F).

Lemma F_64 v i : 1 <= v <= NV -> inn i (F v) -> i < max_domain.
Proof. intros Hv Hi. specialize (F_DM v i Hv Hi). specialize (DM_64 v Hv). lia. Qed.

(** ** Choosing a literal *)

Definition settledL (T : trail) (s : bst) : Prop :=
  forall n c, nth_error (bcl s) n = Some c -> exists l, In l c /\ trueL F T l.

Lemma calm_settled s T : calm s T -> bulist s = [] ->
  (forall n c, nth_error (bcl s) n = Some c -> trueL F T (bw0 s n) \/ falseL F T (bw0 s n)) -> settledL T s.
Proof.
  intros (B & _ & _ & TW & ON & _) EU H n c E.
  destruct (watch_lits NV F DM M s T n c B E) as (H0 & _ & H1).
  destruct (Nat.eq_dec (length c) 1) as [L|L].
  - exists (bw0 s n). split; auto. destruct ON as [ON|(m & Em & _)]; [|congruence]. apply (ON n c); auto.
  - destruct (TW n c E L) as (_ & G). rewrite EU in G. destruct G as [(G1 & G2)|([] & _)].
    destruct (H n c E) as [Ht|Hf]; [exists (bw0 s n); auto|]. destruct (H1 L) as (H1' & _).
    exists (bw1 s n). auto.
Qed.

Lemma lazy_ok s T ns : base s T -> (forall n, In n ns -> exists c, nth_error (bcl s) n = Some c) ->
  exists l, bchoose_lazy s ns = Ok l /\
    ((l = bnolit /\ forall n, In n ns -> trueL F T (bw0 s n) \/ falseL F T (bw0 s n)) \/
     (1 <= fst l <= NV /\ ~ trueL F T l /\ ~ falseL F T l)).
Proof.
  intros B. induction ns as [|n ns IH]; intro H.
  - exists bnolit. split; auto. left. split; auto. intros n [].
  - destruct (H n (or_introl eq_refl)) as (c & Ec).
    destruct (watch_lits NV F DM M s T n c B Ec) as (_ & (R & _) & _).
    destruct IH as (l & E & P); [intros m Hm; apply H; right; auto|]. cbn [bchoose_lazy].
    assert (P' : trueL F T (bw0 s n) \/ falseL F T (bw0 s n) ->
      (l = bnolit /\ forall m, In m (n :: ns) -> trueL F T (bw0 s m) \/ falseL F T (bw0 s m)) \/
      (1 <= fst l <= NV /\ ~ trueL F T l /\ ~ falseL F T l)).
    { intro Q. destruct P as [(P1 & P2)|P]; [left|right; auto]. split; auto. intros m [<-|Hm]; auto. }
    destruct (bsat_cases NV F DM M F_ne s T (bw0 s n) B R) as [(-> & H1 & H2)|[(-> & H1 & H2)|(-> & H1 & H2)]]; cbn [bind].
    + exists l. auto.
    + exists l. auto.
    + exists (bw0 s n). auto.
Qed.

Definition found (T : trail) (b : spec_float * Z * Z) : Prop :=
  nonneg (fst (fst b)) /\ 1 <= snd (fst b) <= NV /\ inn (snd b) (D F T (snd (fst b))) /\
  (1 < bcount (D F T (snd (fst b))))%nat.
Definition none (b : spec_float * Z * Z) : Prop := b = (f64_mone, -1, -1).

Lemma found_none T b : found T b -> none b -> False.
Proof. intros (H & _) E. rewrite E in H. cbn in H. discriminate. Qed.

Lemma score_fold s T v : base s T -> 1 <= v <= NV -> (1 < bcount (D F T v))%nat ->
  forall js b, (forall j, In j js -> 0 <= j < DM v) -> found T b \/ none b ->
  exists b', foldM (bscore_step s v) js b = Ok b' /\
    (found T b' \/ none b /\ none b' /\ forall j, In j js -> ~ inn j (D F T v)).
Proof.
  intros B Hv HC. induction js as [|j js IH]; intros b Hj Hb.
  - exists b. split; auto. destruct Hb as [Hb|Hb]; [left; auto|]. right. split; auto.
  - cbn [foldM]. unfold bscore_step at 1. pose proof (Hj j (or_introl eq_refl)) as Rj. pose proof (DM_64 v Hv).
    destruct (Z.leb_spec max_domain j); [lia|]. rewrite (b_cur _ _ _ _ s T B) by lia.
    assert (Hj' : forall k, In k js -> 0 <= k < DM v) by (intros k Hk; apply Hj; right; auto).
    destruct (Z.testbit (D F T v) j && SFltb (fst (fst b)) (bsc s v j)) eqn:Et; cbn [bind].
    + apply andb_true_iff in Et. destruct Et as (E1 & E2).
      assert (G : found T (bsc s v j, v, j)).
      { split; [apply (b_sc _ _ _ _ s T B)|]. auto. }
      destruct (IH (bsc s v j, v, j) Hj' (or_introl G)) as (b' & E & [Q|(Q & _)]).
      * exists b'. auto.
      * exfalso. apply (found_none T _ G Q).
    + destruct (IH b Hj' Hb) as (b' & E & [Q|(Q1 & Q2 & Q3)]).
      * exists b'. auto.
      * exists b'. split; auto. right. split; auto. split; auto. intros k [<-|Hk]; auto.
        intro Hi. unfold inn in Hi. rewrite Hi in Et. rewrite Q1 in Et. cbn [fst andb] in Et.
        rewrite ltb_mone in Et; [discriminate|]. apply (b_sc _ _ _ _ s T B).
Qed.

Lemma bcount_0 : bcount 0 = 0%nat.
Proof. reflexivity. Qed.

Lemma D_0 T : (forall e, In e T -> fst e <> 0) -> D F T 0 = 0.
Proof.
  induction T as [|(u, x) T IH]; intro H; [exact F_0|].
  rewrite D_other by (apply (H (u, x)); left; auto). apply IH. intros e He. apply H. right. auto.
Qed.

Lemma okT_vars cl T e : okT cl T -> In e T -> 1 <= fst e <= NV.
Proof.
  intros OK He. apply in_split in He. destruct He as (T1 & T2 & Es). destruct e as (u, x).
  apply (okT_split NV F _ _ _ _ _ _ Es OK).
Qed.

Lemma var_fold s T : base s T -> forall vs b, (forall v, In v vs -> 0 <= v <= NV) -> found T b \/ none b ->
  exists b', foldM (bscore_var s) vs b = Ok b' /\
    (found T b' \/ none b /\ none b' /\ forall v, In v vs -> (bcount (D F T v) <= 1)%nat).
Proof.
  intros B. induction vs as [|v vs IH]; intros b Hv Hb.
  - exists b. split; auto. destruct Hb as [Hb|Hb]; [left; auto|]. right. split; auto. split; auto. intros v [].
  - cbn [foldM]. unfold bscore_var at 1. pose proof (Hv v (or_introl eq_refl)) as Rv.
    rewrite (b_cur _ _ _ _ s T B), (b_dom _ _ _ _ s T B) by lia.
    assert (Hv' : forall k, In k vs -> 0 <= k <= NV) by (intros k Hk; apply Hv; right; auto).
    destruct (Nat.ltb_spec 1 (bcount (D F T v))) as [L|L].
    + assert (Rv' : 1 <= v <= NV).
      { destruct (Z.eq_dec v 0) as [->|]; [|lia]. rewrite D_0, bcount_0 in L; [lia|].
        intros e He. pose proof (okT_vars _ T e (b_ok _ _ _ _ s T B) He). lia. }
      destruct (score_fold s T v B Rv' L (zrange 0 (DM v)) b) as (b1 & E1 & Q1); auto.
      { intros j Hj. apply in_zrange in Hj. lia. }
      rewrite E1. cbn [bind]. destruct Q1 as [Q1|(_ & _ & Q1)].
      * destruct (IH b1 Hv' (or_introl Q1)) as (b' & E & [Q|(Q & _)]); [exists b'; auto|].
        exfalso. apply (found_none T _ Q1 Q).
      * exfalso. destruct (D_nonempty NV F (bcl s) T v (b_ok _ _ _ _ s T B) (F_ne v Rv')) as (i & Hi).
        apply (Q1 i); auto. apply in_zrange. pose proof (inn_nonneg _ _ Hi). apply D_full in Hi.
        pose proof (F_DM v i Rv' Hi). lia.
    + cbn [bind]. destruct (IH b Hv' Hb) as (b' & E & [Q|(Q1 & Q2 & Q3)]); [exists b'; auto|].
      exists b'. split; auto. right. split; auto. split; auto. intros k [<-|Hk]; auto.
Qed.

Lemma count_two m j : (1 < bcount m)%nat -> exists i, inn i m /\ i <> j.
Proof.
  unfold bcount. intro L.
  assert (ND : NoDup (filter (Z.testbit m) (zrange 0 max_domain))) by (apply NoDup_filter, nodup_zrange).
  assert (IN : forall i, In i (filter (Z.testbit m) (zrange 0 max_domain)) -> inn i m).
  { intros i Hi. apply filter_In in Hi. apply Hi. }
  destruct (filter (Z.testbit m) (zrange 0 max_domain)) as [|a [|b l]]; cbn [length] in L; try lia.
  inversion ND as [|? ? N1 N2]; subst. destruct (Z.eq_dec a j) as [->|N].
  - exists b. split; [apply IN; right; left; auto|]. intros ->. apply N1. left. auto.
  - exists a. split; [apply IN; left; auto|auto].
Qed.

Lemma count_one m i j : (bcount m <= 1)%nat -> inn i m -> inn j m -> i < max_domain -> j < max_domain -> i = j.
Proof.
  unfold bcount. intros L Hi Hj Li Lj.
  assert (Ii : In i (filter (Z.testbit m) (zrange 0 max_domain))).
  { apply filter_In. split; auto. apply in_zrange. pose proof (inn_nonneg _ _ Hi). lia. }
  assert (Ij : In j (filter (Z.testbit m) (zrange 0 max_domain))).
  { apply filter_In. split; auto. apply in_zrange. pose proof (inn_nonneg _ _ Hj). lia. }
  destruct (filter (Z.testbit m) (zrange 0 max_domain)) as [|a [|b l]]; cbn [length] in L; try lia.
  - destruct Ii.
  - destruct Ii as [<-|[]], Ij as [<-|[]]. auto.
Qed.

Lemma choose_ok cf s T : calm s T -> bulist s = [] ->
  exists s' l, bchoose cf s = Ok (s', l) /\ (s' = s \/ s' = set_buc s None) /\
    ((fst l = -1 /\ settledL T s) \/ (1 <= fst l <= NV /\ ~ trueL F T l /\ ~ falseL F T l)).
Proof.
  intros C EU. pose proof C as (B & _). unfold bchoose. destruct (bvsids cf).
  - unfold bchoose_vsids. rewrite (b_nv _ _ _ _ s T B).
    destruct (var_fold s T B (zrange 0 (NV + 1)) (f64_mone, -1, -1)) as (b & -> & Q).
    { intros v Hv. apply in_zrange in Hv. lia. }
    { right. reflexivity. }
    cbn [bind]. eexists _, _. split; [reflexivity|]. split; [auto|]. cbn [fst snd].
    destruct Q as [(Q1 & Q2 & Q3 & Q4)|(_ & Q & Q')].
    + right. split; auto. destruct b as ((m, v), j). cbn [fst snd] in *.
      pose proof (inn_nonneg _ _ Q3). destruct (Z.eqb_spec j (-1)); [lia|]. split.
      * intro Ht. destruct (count_two _ j Q4) as (i & Hi & Ni). apply Ni. specialize (Ht i Hi). cbn [snd] in Ht.
        apply inn_shiftl in Ht; auto.
      * intro Hf. apply (Hf j); cbn [fst snd]; auto. apply inn_shiftl; auto.
    + left. rewrite Q. split; auto. apply calm_settled; auto. intros n c E.
      destruct (watch_lits NV F DM M s T n c B E) as (_ & (R & _) & _).
      destruct (bsat_cases NV F DM M F_ne s T (bw0 s n) B R) as [(_ & H1 & _)|[(_ & H1 & _)|(_ & H1 & H2)]]; auto.
      exfalso. destruct (open_value F T _ H1) as (i & I1 & I2). destruct (nfalse_value F T _ H2) as (j & J1 & J2).
      apply I2. replace i with j; auto. apply (count_one (D F T (fst (bw0 s n)))); auto.
      * apply Q'. apply in_zrange. lia.
      * apply D_full in J1. apply (F_64 (fst (bw0 s n))); auto.
      * apply D_full in I1. apply (F_64 (fst (bw0 s n))); auto.
  - destruct (lazy_ok s T (seq 0 (length (bcl s))) B) as (l & -> & Q).
    { intros n Hn. apply in_seq in Hn. destruct (nth_error (bcl s) n) eqn:E; eauto.
      apply nth_error_None in E. lia. }
    cbn [bind]. exists s, l. split; auto. split; auto. destruct Q as [(-> & Q)|Q]; auto. left. split; auto.
    apply calm_settled; auto. intros n c E. apply Q. apply in_seq.
    assert (n < length (bcl s))%nat by (apply nth_error_Some; congruence). lia.
Qed.

(** ** Decisions *)

Lemma cut_top cl T : okT cl T -> cut (toplev T) T = T.
Proof. intro OK. apply (cut_all NV F cl); auto. lia. Qed.

Lemma cut_pre k pre T : (forall e, In e pre -> k < nlev (snd e)) -> cut k (pre ++ T) = cut k T.
Proof.
  induction pre as [|(v, x) pre IH]; intro H; auto. cbn [app]. rewrite cut_cons by (apply (H (v, x)); left; auto).
  apply IH. intros e He. apply H. right. auto.
Qed.

Lemma base_level s T : calm s T -> bulist s = [] -> base (set_blevel s (blevel s + 1)) T.
Proof.
  intros (B & LV & _ & TW & _) EU. pose proof (b_cuts _ _ _ _ s T B) as CU. pose proof (b_ok _ _ _ _ s T B) as OK.
  destruct B; constructor; auto. cbn. intros n c k E L Hk.
  destruct (Z.eq_dec k (blevel s)) as [->|N].
  - rewrite LV, (cut_top (bcl s)) by auto. destruct (TW n c E L) as (_ & G). rewrite EU in G.
    destruct G as [G|([] & _)]. auto.
  - apply (CU n c); auto. lia.
Qed.

Lemma decide_ok s T l : calm s T -> bulist s = [] -> fixed s T -> 1 <= fst l <= NV -> ~ trueL F T l -> ~ falseL F T l ->
  exists s' x, breduce (set_buc (set_blevel (set_bdec s (bdec s + 1)) (blevel s + 1)) None) l = Ok s' /\
    (calm s' ((fst l, x) :: T) \/ clash s' ((fst l, x) :: T)) /\ fixed s' ((fst l, x) :: T) /\
    nlev x = blevel s + 1 /\ bcl s' = bcl s /\ bback s' = bback s /\ brest s' = brest s.
Proof.
  intros C EU FX Hl Nt Nf. pose proof C as (B & LV & CF & TW & ON & _).
  pose proof (b_ok _ _ _ _ s T B) as OK.
  assert (ON' : forall m, one F T s m) by (destruct ON as [ON|(n & En & _)]; [auto|congruence]).
  set (s0 := set_buc (set_blevel (set_bdec s (bdec s + 1)) (blevel s + 1)) None).
  assert (B0 : base s0 T).
  { apply base_uc. change (set_blevel (set_bdec s (bdec s + 1)) (blevel s + 1)) with
      (set_bdec (set_blevel s (blevel s + 1)) (bdec s + 1)). apply base_dec. apply base_level; auto. }
  destruct (reduce_ok NV F DM M F_ne [] s0 T l B0 Hl Nt Nf) as (s' & E & KP & B' & ID & ON2 & R); auto.
  { unfold cause. cbn. lia. }
  { intros m. apply one_push. intros c Em Lm. apply (ON' m c); auto. }
  destruct KP as (K1 & K2 & K3 & K4 & K5 & K6 & K7 & K8 & K9).
  exists s', (new_node s0 l). split; [auto|].
  assert (LX : nlev (new_node s0 l) = blevel s + 1) by reflexivity.
  assert (LV' : blevel s' = toplev ((fst l, new_node s0 l) :: T)) by (rewrite K2; reflexivity).
  split; [|split; [|split; [auto|split; [auto|split; auto]]]].
  - destruct R as [(R1 & R2)|(R1 & R2)].
    + left. split; [auto|]. split; [auto|]. split; [auto|]. split; [auto|]. split; [left; auto|].
      intros n Hn. destruct (ID n Hn) as [Hn'|Hn'].
      * change (bulist s0) with (bulist s) in Hn'. rewrite EU in Hn'. destruct Hn'.
      * change (bcl s0) with (bcl s) in *. rewrite K1. auto.
    + right. split; [auto|]. split; [auto|]. split; auto.
  - intros _ n c l0 En Ln Hl0. rewrite K1 in En. change (bcl s0) with (bcl s) in En.
    pose proof (toplev_bound NV F (bcl s) T OK) as TB.
    rewrite cut_cons by (rewrite LX; lia). destruct (Z.eq_dec (blevel s) 0) as [Ez|Nz].
    + assert (EC : cut 0 T = T) by (rewrite <- (cut_top (bcl s) T OK) at 2; f_equal; lia). rewrite EC.
      destruct (watch_lits NV F DM M s T n c B En) as (H0 & _).
      replace l0 with (bw0 s n); [apply (ON' n c); auto|].
      destruct c as [|x [|y c]]; cbn in Ln; try discriminate. destruct H0 as [<-|[]], Hl0 as [<-|[]]. auto.
    + apply (FX ltac:(lia) n c); auto.
Qed.

(** ** The measure *)

Definition KK : nat := sizeT NV F [].
Definition BB : nat := S KK.
Definition wgt (x : node) : nat := (BB ^ (KK - Z.to_nat (nlev x)))%nat.
Definition mu (T : trail) : nat := list_sum (map (fun e => wgt (snd e)) T).

Lemma mu_app T1 T2 : mu (T1 ++ T2) = (mu T1 + mu T2)%nat.
Proof. unfold mu. rewrite map_app, list_sum_app. auto. Qed.

Lemma wgt_pos x : (1 <= wgt x)%nat.
Proof. unfold wgt. assert (BB ^ (KK - Z.to_nat (nlev x)) <> 0)%nat; [|lia]. apply Nat.pow_nonzero. unfold BB. lia. Qed.

Lemma mu_pos pre : pre <> [] -> (1 <= mu pre)%nat.
Proof. destruct pre as [|e pre]; [congruence|]. intros _. unfold mu. cbn. pose proof (wgt_pos (snd e)). lia. Qed.

Lemma len_bound cl T : okT cl T -> (length T <= KK)%nat.
Proof. intro OK. pose proof (size_bound NV F F_64 cl T OK). unfold KK. lia. Qed.

Lemma mu_upper T w : (forall e, In e T -> (wgt (snd e) <= w)%nat) -> (mu T <= length T * w)%nat.
Proof.
  induction T as [|e T IH]; intro H; [cbn; lia|]. unfold mu in *. cbn [map list_sum length fold_right Nat.mul].
  specialize (H e (or_introl eq_refl)) as He.
  assert (list_sum (map (fun e => wgt (snd e)) T) <= length T * w)%nat by (apply IH; intros; apply H; right; auto).
  unfold list_sum in *. lia.
Qed.

Lemma mu_bound cl T : okT cl T -> (mu T <= KK * BB ^ KK)%nat.
Proof.
  intro OK. transitivity (length T * BB ^ KK)%nat.
  - apply mu_upper. intros e _. unfold wgt. apply Nat.pow_le_mono_r; [unfold BB|]; lia.
  - apply Nat.mul_le_mono_r. eapply len_bound; eauto.
Qed.

Lemma mu_jump cl T pre lev : okT cl T -> 0 <= lev < toplev T ->
  pre <> [] -> (forall e, In e pre -> nlev (snd e) = lev) -> (mu T < mu (pre ++ cut lev T))%nat.
Proof.
  intros OK HL NP HP. destruct (cut_split NV F cl lev T OK) as (T1 & E & G).
  pose proof (len_bound cl T OK) as LB. pose proof (toplev_bound NV F cl T OK) as TB.
  rewrite mu_app. rewrite E at 1. rewrite mu_app.
  assert (LL : (length T1 <= KK)%nat).
  { apply (f_equal (@length _)) in E. rewrite app_length in E. lia. }
  assert (X : (S (Z.to_nat lev) <= KK)%nat) by lia.
  assert (U : (mu T1 <= KK * BB ^ (KK - S (Z.to_nat lev)))%nat).
  { transitivity (length T1 * BB ^ (KK - S (Z.to_nat lev)))%nat.
    - apply mu_upper. intros e He. specialize (G e He). unfold wgt. apply Nat.pow_le_mono_r; [unfold BB; lia|]. lia.
    - apply Nat.mul_le_mono_r. auto. }
  assert (P : (BB ^ (KK - Z.to_nat lev) <= mu pre)%nat).
  { destruct pre as [|e pre]; [congruence|]. specialize (HP e (or_introl eq_refl)). unfold mu. cbn [map list_sum fold_right].
    unfold wgt at 1. rewrite HP. lia. }
  assert (Y : (KK - Z.to_nat lev = S (KK - S (Z.to_nat lev)))%nat) by lia.
  rewrite Y in P. cbn [Nat.pow] in P. unfold BB in P at 1. cbn [Nat.mul] in P.
  assert (1 <= BB ^ (KK - S (Z.to_nat lev)))%nat.
  { assert (BB ^ (KK - S (Z.to_nat lev)) <> 0)%nat; [|lia]. apply Nat.pow_nonzero. unfold BB. lia. }
  lia.
Qed.

(** ** Refutation at level 0 *)

Lemma level0 cl a T : okT cl T -> toplev T = 0 -> (forall n c, nth_error cl n = Some c -> okC c) -> M a ->
  forall v, 1 <= v <= NV -> inn (a v) (D F T v).
Proof.
  intros OK TL HC HM. induction T as [|(u, x) T IH]; intros v Hv; [apply M_F; auto|].
  cbn [toplev] in TL. destruct OK as (HN & OK). pose proof (toplev_bound NV F cl T OK) as TB.
  destruct HN as (Hu & _ & _ & _ & _ & HR). destruct (nreason x) as [n|]; [|lia].
  destruct HR as (HL & R & Bm & En & Hin & Hd & Hall). specialize (IH OK ltac:(lia)).
  apply D_cons. split; [auto|]. intros ->.
  destruct (HC n R En) as (_ & ND & OL & HB). destruct (HB a HM) as (l & Hl & Ha).
  destruct (Z.eq_dec (fst l) v) as [Ev|Nv].
  - assert (El : l = (v, Bm)) by (apply (nodup_fst_eq R); auto). subst l. cbn [fst snd] in Ha. intro Hx. apply (Hd _ Hx Ha).
  - exfalso. apply (Hall l Hl Nv (a (fst l))); auto. apply IH. apply (OL l Hl).
Qed.

Lemma refuted s T a : clash s T -> blevel s = 0 -> M a -> False.
Proof.
  intros (B & LV & _ & (c & v & x & T0 & _ & Ec & _ & Fc & _) & _) L0 HM.
  destruct (b_cls _ _ _ _ s T B _ _ Ec) as (_ & _ & OL & HB). destruct (HB a HM) as (l & Hl & Ha).
  apply (Fc l Hl _ Ha). apply (level0 (bcl s) a T); auto.
  - apply (b_ok _ _ _ _ s T B).
  - lia.
  - apply (b_cls _ _ _ _ s T B).
  - apply (OL l Hl).
Qed.

(** ** The loop *)

Variable cl0 : list bclause.
Variable cf : bcfg.
Variable clk : nat -> bool.
Variable r : Z.
Hypothesis LEN : blen cf = true.
Hypothesis R0 : r <= 0.

Definition Inv (s : bst) (T : trail) : Prop :=
  (calm s T \/ clash s T) /\ fixed s T /\ brest s = 0 /\
  exists L, bcl s = cl0 ++ L /\ bback s = Z.of_nat (length L).

Definition Fin (v : verdict) (s : bst) : Prop :=
  (exists T, base s T /\ match v with SAT => settledL T s | _ => True end) /\
  match v with
  | SAT => True
  | UNSAT => forall a, ~ M a
  | TIMEOUT => exists j, clk j = true
  end /\ brest s = 0 /\ exists L, bcl s = cl0 ++ L /\ bback s = Z.of_nat (length L).

Lemma calm_tick s T n : calm s T -> calm (set_btick s n) T.
Proof. intros (B & H). split; [apply base_tick; auto|exact H]. Qed.
Lemma clash_tick s T n : clash s T -> clash (set_btick s n) T.
Proof. intros (B & H). split; [apply base_tick; auto|exact H]. Qed.

Lemma fixed_pre s s' T pre : fixed s T -> bcl s' = bcl s -> blevel s' = blevel s ->
  (forall e, In e pre -> nlev (snd e) = blevel s) -> fixed s' (pre ++ T).
Proof.
  intros FX E1 E2 HP LP n c l En Ln Hl. rewrite E2 in LP. rewrite E1 in En. rewrite cut_pre.
  - apply (FX LP n c); auto.
  - intros e He. rewrite HP by auto. auto.
Qed.

(** From a state without a conflict: propagation, then a decision. *)
Lemma second_half s T : calm s T -> fixed s T ->
  exists N s' pre, (forall fuel, (N <= fuel)%nat -> match bulist s with [] => Ok s | _ => bprop fuel s end = Ok s') /\
    (forall e, In e pre -> nlev (snd e) = blevel s) /\
    (forall n rest, bulist s = n :: rest -> ~ trueL F T (bw0 s n) -> ~ falseL F T (bw0 s n) -> pre <> []) /\
    bcl s' = bcl s /\ bback s' = bback s /\ brest s' = brest s /\
    (clash s' (pre ++ T) /\ pre <> [] /\ fixed s' (pre ++ T) \/
     calm s' (pre ++ T) /\ exists s1 l, bchoose cf s' = Ok (s1, l) /\
       (fst l = -1 /\ settledL (pre ++ T) s1 /\ calm s1 (pre ++ T) /\ bcl s1 = bcl s /\ bback s1 = bback s /\ brest s1 = brest s \/
        fst l <> -1 /\ exists s2 x, breduce (set_buc (set_blevel (set_bdec s1 (bdec s1 + 1)) (blevel s1 + 1)) None) l = Ok s2 /\
          (calm s2 ((fst l, x) :: pre ++ T) \/ clash s2 ((fst l, x) :: pre ++ T)) /\ fixed s2 ((fst l, x) :: pre ++ T) /\
          bcl s2 = bcl s /\ bback s2 = bback s /\ brest s2 = brest s)).
Proof.
  intros C FX.
  assert (PR : exists N s' pre, (forall fuel, (N <= fuel)%nat -> match bulist s with [] => Ok s | _ => bprop fuel s end = Ok s') /\
    (forall e, In e pre -> nlev (snd e) = blevel s) /\ bulist s' = [] /\
    (forall n rest, bulist s = n :: rest -> ~ trueL F T (bw0 s n) -> ~ falseL F T (bw0 s n) -> pre <> []) /\
    keepP s s' /\ (calm s' (pre ++ T) \/ clash s' (pre ++ T) /\ pre <> [])).
  { destruct (bulist s) as [|n rest] eqn:EU.
    - exists 0%nat, s, []. split; [auto|]. split; [intros e []|]. split; [auto|]. split; [congruence|].
      split; [apply (keepP_refl NV F DM M)|]. left. exact C.
    - destruct (prop_ok NV F DM M F_ne F_64 (sizeT NV F T) (bulist s) s T) as (N & s' & pre & H1 & H2 & H3 & H4 & H5 & H6); auto.
      exists N, s', pre. split; [auto|]. split; [auto|]. split; [auto|]. split; [|split; auto].
      intros n0 rest0 E. apply (H5 n0 rest0). congruence. }
  destruct PR as (N & s' & pre & H1 & H2 & H3 & H4 & KP & H5).
  destruct KP as (K1 & K2 & K3 & K4 & K5 & K6 & K7).
  assert (FX' : fixed s' (pre ++ T)) by (apply (fixed_pre s); auto).
  exists N, s', pre. split; [auto|]. split; [auto|]. split; [auto|]. split; [auto|]. split; [auto|]. split; [auto|].
  destruct H5 as [C'|(C' & NP)]; [right|left; auto]. split; [auto|].
  destruct (choose_ok cf s' (pre ++ T) C' H3) as (s1 & l & E & E1 & Q). exists s1, l. split; [auto|].
  assert (C1 : calm s1 (pre ++ T) /\ bulist s1 = [] /\ fixed s1 (pre ++ T) /\ bcl s1 = bcl s' /\ bback s1 = bback s' /\ brest s1 = brest s').
  { destruct E1 as [->| ->]; [auto 10|]. split; [|auto 10]. destruct C' as (B & C'). split; [apply base_uc; auto|exact C']. }
  destruct C1 as (C1 & U1 & F1 & G1 & G2 & G3). destruct Q as [(Q1 & Q2)|(Q1 & Q2 & Q3)].
  - left. split; [auto|]. split; [|split; [auto|]].
    + intros n c En. apply (Q2 n c). congruence.
    + split; [congruence|]. split; congruence.
  - right. split; [lia|]. destruct (decide_ok s1 (pre ++ T) l C1 U1 F1 Q1 Q2 Q3) as (s2 & x & D1 & D2 & D3 & _ & D4 & D5 & D6).
    exists s2, x. split; [auto|]. split; [auto|]. split; [auto|]. split; [congruence|]. split; congruence.
Qed.

Lemma iter_ok s T : Inv s T ->
  exists N q, (forall fuel, (N <= fuel)%nat -> biter fuel cf clk r r s = Ok q) /\
    match q with
    | inl (v, s') => Fin v s'
    | inr (rc, s') => rc = r /\ exists T', Inv s' T' /\ (mu T < mu T')%nat
    end.
Proof.
  intros (HC & FX & RE & L & EL & EB).
  set (s0 := set_btick s (S (btick s))).
  assert (HC0 : calm s0 T \/ clash s0 T) by (destruct HC; [left; apply calm_tick|right; apply clash_tick]; auto).
  assert (B0 : base s0 T) by (destruct HC0 as [(B & _)|(B & _)]; auto).
  destruct (clk (btick s)) eqn:CK.
  { exists 0%nat, (inl (TIMEOUT, s0)). split.
    - intros fuel _. unfold biter. rewrite CK. reflexivity.
    - split; [exists T; auto|]. split; [eauto|]. split; [auto|]. exists L. auto. }
  assert (TAIL : forall s1 T1 L1, calm s1 T1 -> fixed s1 T1 -> brest s1 = 0 -> bcl s1 = cl0 ++ L1 ->
      bback s1 = Z.of_nat (length L1) ->
      ((mu T <= mu T1)%nat \/ forall pre, pre <> [] -> (forall e, In e pre -> nlev (snd e) = blevel s1) -> (mu T < mu (pre ++ T1))%nat) ->
      ((mu T <= mu T1)%nat \/ exists n, bulist s1 = [n] /\ ~ trueL F T1 (bw0 s1 n) /\ ~ falseL F T1 (bw0 s1 n)) ->
    exists N q, (forall fuel, (N <= fuel)%nat ->
      (let* s := match bulist s1 with [] => Ok s1 | _ => bprop fuel s1 end in
       if bconf s then Ok (inr (r, s))
       else
         let* q := bchoose cf s in
         let (s, l) := q in
         if fst l =? -1 then Ok (inl (SAT, s))
         else
           let s := set_bdec s (bdec s + 1) in
           let s := set_blevel s (blevel s + 1) in
           let s := set_buc s None in
           let* s := breduce s l in
           Ok (inr (r, s))) = Ok q) /\
    match q with
    | inl (v, s') => Fin v s'
    | inr (rc, s') => rc = r /\ exists T', Inv s' T' /\ (mu T < mu T')%nat
    end).
  { intros s1 T1 L1 C1 F1 R1 EL1 EB1 MU NE.
    destruct (second_half s1 T1 C1 F1) as (N & s2 & pre & H1 & H2 & H3 & H4 & H5 & H6 & H7).
    assert (MUP : (mu T <= mu (pre ++ T1))%nat /\ (pre <> [] -> (mu T < mu (pre ++ T1))%nat)).
    { rewrite mu_app in *. destruct (list_eq_dec (A := Z * node) ltac:(intros; decide equality; try apply Z.eq_dec; repeat decide equality) pre []) as [->|NP].
      - split; [|congruence]. cbn. destruct NE as [NE|(n & En & N1 & N2)]; [lia|]. exfalso. apply (H3 n [] En N1 N2). auto.
      - pose proof (mu_pos pre NP). destruct MU as [MU|MU]; [split; lia|]. specialize (MU pre NP H2). rewrite mu_app in MU. split; lia. }
    destruct MUP as (MU1 & MU2).
    destruct H7 as [(C2 & NP & F2)|(C2 & s3 & l & EC & Q)].
    - exists N, (inr (r, s2)). split.
      + intros fuel Hf. rewrite (H1 fuel Hf). cbn [bind]. pose proof C2 as (_ & _ & CF & _). rewrite CF. auto.
      + split; auto. exists (pre ++ T1). split; [|auto]. split; [auto|]. split; [auto|]. split; [congruence|].
        exists L1. split; congruence.
    - pose proof C2 as (_ & _ & CF & _). destruct Q as [(Q1 & Q2 & Q3 & Q4 & Q5 & Q6)|(Q1 & s4 & x & Q2 & Q3 & Q4 & Q5 & Q6 & Q7)].
      + exists N, (inl (SAT, s3)). split.
        * intros fuel Hf. rewrite (H1 fuel Hf). cbn [bind]. rewrite CF, EC. cbn [bind]. rewrite Q1. auto.
        * split; [exists (pre ++ T1); split; [apply Q3|auto]|]. split; [auto|]. split; [congruence|].
          exists L1. split; congruence.
      + exists N, (inr (r, s4)). split.
        * intros fuel Hf. rewrite (H1 fuel Hf). cbn [bind]. rewrite CF, EC. cbn [bind].
          destruct (Z.eqb_spec (fst l) (-1)); [congruence|]. cbv zeta.
          change (blevel (set_bdec s3 (bdec s3 + 1))) with (blevel s3). rewrite Q2. auto.
        * split; auto. exists ((fst l, x) :: pre ++ T1). split.
          -- split; [auto|]. split; [auto|]. split; [congruence|]. exists L1. split; congruence.
          -- change ((fst l, x) :: pre ++ T1) with ([(fst l, x)] ++ (pre ++ T1)). rewrite mu_app.
             pose proof (mu_pos [(fst l, x)] ltac:(discriminate)). lia. }
  destruct HC0 as [C0|C0].
  - destruct (TAIL s0 T L C0) as (N & q & H1 & H2); auto.
    exists N, q. split; auto. intros fuel Hf. unfold biter. rewrite CK. fold s0.
    pose proof C0 as (_ & _ & CF & _). rewrite CF. cbn [andb bind]. apply H1. auto.
  - pose proof C0 as (_ & LV & CF & _).
    destruct (Z.eqb_spec (blevel s0) 0) as [L0|L0].
    + exists 0%nat, (inl (UNSAT, s0)). split.
      * intros fuel _. unfold biter. rewrite CK. fold s0. rewrite CF, L0. reflexivity.
      * split; [exists T; auto|]. split; [|split; [auto|exists L; auto]]. intros a Ha. exact (refuted s0 T a C0 L0 Ha).
    + pose proof (toplev_bound NV F (bcl s0) T (b_ok _ _ _ _ s0 T B0)) as TB.
      destruct (conflict_ok NV F DM M F_ne DM_64 cf r r s0 T) as
        (N1 & s1 & lev & n & q & H1 & C1 & F1 & U1 & HL & LV1 & NT & NF & CL1 & BK1 & _ & _ & RE1 & _); auto; try lia.
      { change (bback s0) with (bback s). lia. }
      destruct (TAIL s1 (cut lev T) (L ++ [q])) as (N2 & q2 & H2 & H3); auto.
      { rewrite RE1. auto. }
      { rewrite CL1. change (bcl s0) with (bcl s). rewrite EL, app_assoc. auto. }
      { rewrite BK1. change (bback s0) with (bback s). rewrite EB, app_length. cbn. lia. }
      { right. intros pre NP HP. apply (mu_jump (bcl s0)); auto.
        - apply (b_ok _ _ _ _ s0 T B0).
        - lia.
        - intros e He. rewrite HP; auto. }
      { right. exists n. auto. }
      exists (Nat.max N1 N2), q2. split; auto. intros fuel Hf. unfold biter. rewrite CK. fold s0. rewrite CF.
      destruct (Z.eqb_spec (blevel s0) 0); [congruence|]. cbn [andb]. rewrite H1 by lia. cbn [bind]. apply H2. lia.
Qed.

Lemma loop_ok k : forall s T, (KK * BB ^ KK - mu T <= k)%nat -> Inv s T ->
  exists N v s', (forall fuel, (N <= fuel)%nat -> bloop fuel cf clk r r s = Ok (v, s')) /\ Fin v s'.
Proof.
  induction k as [k IH] using lt_wf_ind. intros s T Hk HI.
  destruct (iter_ok s T HI) as (N1 & q & H1 & H2). destruct q as [(v, s')|(rc, s')].
  - exists (S N1), v, s'. split; auto. intros fuel Hf. destruct fuel; [lia|]. cbn [bloop]. rewrite H1 by lia. auto.
  - destruct H2 as (-> & T' & HI' & MU).
    assert (MB : (mu T' <= KK * BB ^ KK)%nat).
    { destruct HI' as ([(B & _)|(B & _)] & _); apply (mu_bound (bcl s')), (b_ok _ _ _ _ s' T' B). }
    destruct (IH (KK * BB ^ KK - mu T')%nat ltac:(lia) s' T') as (N2 & v & s2 & H3 & H4); auto.
    exists (S (Nat.max N1 N2)), v, s2. split; auto. intros fuel Hf. destruct fuel; [lia|]. cbn [bloop].
    rewrite H1 by lia. cbn [bind]. apply H3. lia.
Qed.

(** ** What is printed *)

Lemma verify_ok s T : base s T -> settledL T s -> bverify s = Ok true.
Proof.
  intros B HS. unfold bverify.
  assert (G : forall cs, (forall c, In c cs -> (forall l, In l c -> 1 <= fst l <= NV) /\ exists l, In l c /\ trueL F T l) ->
    bverify_clauses s cs = Ok true).
  { induction cs as [|c cs IH]; intro H; auto. cbn [bverify_clauses].
    destruct (H c (or_introl eq_refl)) as (Hr & Ht).
    assert (E : bverify_clause s c = Ok true).
    { clear - B Hr Ht. induction c as [|l c IH]; [destruct Ht as (l & [] & _)|]. cbn [bverify_clause].
      pose proof (Hr l (or_introl eq_refl)) as Rl.
      rewrite (bvar_ok NV F DM M s T) by (auto; lia). cbn [bind]. rewrite (b_cur _ _ _ _ s T B) by lia.
      destruct (Z.eqb_spec (Z.ldiff (D F T (fst l)) (snd l)) 0) as [|N]; auto.
      apply IH; [intros m Hm; apply Hr; right; auto|]. destruct Ht as (m & [->|Hm] & Ht); [|eauto].
      exfalso. apply N. apply ldiff_zero. exact Ht. }
    rewrite E. cbn [bind]. apply IH. intros d Hd. apply H. right. auto. }
  apply G. intros c Hc. apply In_nth_error in Hc. destruct Hc as (n & En). split; [|apply (HS n c En)].
  intros l Hl. apply (b_cls _ _ _ _ s T B n c En). auto.
Qed.

Lemma settled_holds s T a : base s T -> settledL T s -> (forall v, 1 <= v <= NV -> inn (a v) (bcur s v)) ->
  forall c, In c (bcl s) -> bholds a c.
Proof.
  intros B HS Ha c Hc. apply In_nth_error in Hc. destruct Hc as (n & En). destruct (HS n c En) as (l & Hl & Ht).
  destruct (b_cls _ _ _ _ s T B n c En) as (_ & _ & OL & _). destruct (OL l Hl) as (R & _).
  exists l. split; auto. apply Ht. rewrite <- (b_cur _ _ _ _ s T B) by lia. auto.
Qed.

End Loop.
