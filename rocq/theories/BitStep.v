(** * The second solver: choices, learned clauses and backjumps along a run *)

From Verif Require Import Spec Outcome State ModelHeur ModelSearch ModelBuild ModelBit Base BitTrail BitInv
  BitResolve BitStepSpec BitNode BitLearn BitLoop BitSpec BitBuild.

(** ** More fuel gives the same result *)

Lemma prop_mono f : forall f' s x, (f <= f')%nat -> bprop f s = Ok x -> bprop f' s = Ok x.
Proof.
  induction f as [|f IH]; intros f' s x L H; [discriminate|]. destruct f' as [|f']; [lia|]. cbn [bprop] in *.
  destruct (bconf s); [auto|]. destruct (bulist s) as [|n rest]; [auto|].
  set (s1 := set_bulist (set_buc s (Some n)) rest) in *.
  destruct (bget s1 n) as [c| |]; try discriminate. cbn [bind] in *.
  destruct (bsat s1 (bw0 s1 n)) as [y| |]; try discriminate. cbn [bind] in *.
  assert (RED : forall l, (let* s := breduce s1 l in bprop f (set_bunits s (bunits s + 1))) = Ok x ->
    (let* s := breduce s1 l in bprop f' (set_bunits s (bunits s + 1))) = Ok x).
  { intros l E. destruct (breduce s1 l) as [s2| |]; try discriminate. cbn [bind] in *. apply (IH f'); auto. lia. }
  assert (NX : bprop f s1 = Ok x -> bprop f' s1 = Ok x) by (intro E; apply (IH f'); auto; lia).
  destruct y; auto; (destruct (Nat.ltb 1 (length c)); [|auto]);
    (destruct (bsat s1 (bw1 s1 n)) as [z| |]; try discriminate); cbn [bind] in *; destruct z; auto.
Qed.

Lemma analyze_mono f cf : forall f' s q a b fresh x, (f <= f')%nat -> banalyze f cf s q a b fresh = Ok x ->
  banalyze f' cf s q a b fresh = Ok x.
Proof.
  induction f as [|f IH]; intros f' s q a b fresh x L H; [discriminate|]. destruct f' as [|f']; [lia|].
  cbn [banalyze] in *. destruct (bpotent s q b) as [y| |]; try discriminate. cbn [bind] in *. destruct y; [auto|].
  destruct (bnode_of s a) as [z| |]; try discriminate. cbn [bind] in *. destruct (nreason z) as [n|]; [|discriminate].
  destruct (bget s n) as [c| |]; try discriminate. cbn [bind] in *.
  destruct (bassign_watched s (bresolve q a c)) as [w| |]; try discriminate. cbn [bind] in *. apply (IH f'); auto. lia.
Qed.

Lemma conflict_mono f f' cf r rc s x : (f <= f')%nat -> bconflict f cf r rc s = Ok x -> bconflict f' cf r rc s = Ok x.
Proof.
  unfold bconflict. intros L H. destruct (bget s (bcc s)) as [c| |]; try discriminate. cbn [bind] in *.
  destruct (banalyze f cf s c _ _ false) as [y| |] eqn:E; try discriminate.
  rewrite (analyze_mono f cf f' _ _ _ _ _ _ L E). auto.
Qed.

Lemma unit_mono f f' s x : (f <= f')%nat -> match bulist s with [] => Ok s | _ => bprop f s end = Ok x ->
  match bulist s with [] => Ok s | _ => bprop f' s end = Ok x.
Proof. intros L H. destruct (bulist s); [auto|]. apply (prop_mono f); auto. Qed.

Lemma iter_mono f f' cf clk r rc s x : (f <= f')%nat -> biter f cf clk r rc s = Ok x -> biter f' cf clk r rc s = Ok x.
Proof.
  unfold biter. cbv zeta. intros L H. destruct (clk (btick s)); [auto|].
  destruct (bconf (set_btick s (S (btick s))) && _); [auto|].
  apply bind_ok in H. destruct H as (q & E & H). apply bind_ok in E || idtac.
  assert (E' : (if bconf (set_btick s (S (btick s))) then bconflict f' cf r rc (set_btick s (S (btick s)))
    else Ok (set_btick s (S (btick s)), rc)) = Ok q).
  { destruct (bconf _); [apply (conflict_mono f); auto|auto]. }
  rewrite E'. cbn [bind]. destruct q as (s1, rc1). apply bind_ok in H. destruct H as (s2 & E2 & H).
  rewrite (unit_mono f f' s1 s2 L E2). auto.
Qed.

Lemma prop_empty f : forall s s', bprop f s = Ok s' -> bulist s' = [].
Proof.
  induction f as [|f IH]; intros s s' H; [discriminate|]. cbn [bprop] in H.
  destruct (bconf s); [injection H as <-; auto|]. destruct (bulist s) as [|n rest] eqn:EU; [injection H as <-; auto|].
  set (s1 := set_bulist (set_buc s (Some n)) rest) in *.
  apply bind_ok in H. destruct H as (c & _ & H). apply bind_ok in H. destruct H as (x & _ & H).
  assert (RED : forall l, (let* s := breduce s1 l in bprop f (set_bunits s (bunits s + 1))) = Ok s' -> bulist s' = []).
  { intros l E. apply bind_ok in E. destruct E as (s2 & _ & E). eauto. }
  destruct x; eauto; (destruct (Nat.ltb 1 (length c)); [|eauto];
    apply bind_ok in H; destruct H as (y & _ & H); destruct y; eauto).
Qed.

Section Steps.
Variable p : problem.
Hypothesis WF : wf p.
Hypothesis FITS : fits64 p.
Hypothesis LONE : lone p.
Variable cf : bcfg.
Variable clk : nat -> bool.
Variable r : Z.
Hypothesis LEN : blen cf = true.
Hypothesis R0 : r <= 0.

Notation base := (base (nvars p) (FF p) (domsize p) (MM p)).
Notation calm := (calm (nvars p) (FF p) (domsize p) (MM p)).
Notation clash := (clash (nvars p) (FF p) (domsize p) (MM p)).
Notation fixed := (fixed (FF p)).
Notation inv := (Inv (nvars p) (FF p) (domsize p) (MM p) (map (convC p) (clauses p))).

Lemma nv_nn : 0 <= nvars p.
Proof. unfold nvars. lia. Qed.

Lemma reached_inv rc s : bit_reached cf clk r p rc s -> rc = r /\ exists T, inv s T.
Proof.
  induction 1 as [s E|fuel rc s rc' s' _ IH E].
  - split; auto. destruct (build_ok p WF FITS) as (s1 & E1 & HB & EC). assert (s1 = s) by congruence. subst s1.
    exists []. apply start_inv; auto.
  - destruct IH as (-> & T & HI).
    destruct (iter_ok (nvars p) (FF p) (domsize p) (MM p) nv_nn (FF_ne p WF FITS) (FF_0 p) (FF_DM p WF FITS)
      (DM_64' p WF FITS) (MM_F p WF FITS) _ cf clk r LEN R0 s T HI) as (N & q & H1 & H2).
    pose proof (iter_mono fuel (Nat.max N fuel) cf clk r r s _ ltac:(lia) E) as E'.
    rewrite H1 in E' by lia. injection E' as ->. destruct H2 as (-> & T' & HI' & _). eauto.
Qed.

(** A conflict above level 0. *)
Lemma conflict_state rc s : bit_conflict_at cf clk r p rc s -> rc = r /\ exists T, clash s T /\ fixed s T /\
  0 < blevel s /\ bback s + 1 <> r.
Proof.
  intros (s0 & HR & CK & CF & LV & ->). destruct (reached_inv rc s0 HR) as (-> & T & HC & FX & RE & L & EL & EB).
  split; auto. exists T. destruct HC as [(_ & _ & CF' & _)|C]; [congruence|].
  split; [apply clash_tick; auto|]. split; [exact FX|]. cbn. destruct C as (B & LV' & _).
  pose proof (toplev_bound _ _ _ T (b_ok _ _ _ _ s0 T B)). split; lia.
Qed.

Lemma decision_calm s l : bit_decision_at cf clk r p s l ->
  exists T s2, calm s T /\ bulist s = [] /\ bchoose cf s = Ok (s2, l).
Proof.
  intros (fuel & rc0 & s0 & rc & s1 & s2 & HR & CK & (NL & E1) & E2 & NC & EC). cbv zeta in *.
  destruct (reached_inv rc0 s0 HR) as (-> & T & HC & FX & RE & L & EL & EB).
  set (s0' := set_btick s0 (S (btick s0))) in *.
  assert (C1 : exists T1, calm s1 T1 /\ fixed s1 T1).
  { destruct HC as [C|C].
    - pose proof C as (_ & _ & CF & _). change (bconf s0') with (bconf s0) in E1. rewrite CF in E1. injection E1 as <- _.
      exists T. split; [apply calm_tick; auto|exact FX].
    - pose proof C as (B & LV & CF & _). change (bconf s0') with (bconf s0) in *. rewrite CF in E1. specialize (NL CF).
      pose proof (toplev_bound _ _ _ T (b_ok _ _ _ _ s0 T B)) as TB. change (blevel s0') with (blevel s0) in NL.
      destruct (conflict_ok (nvars p) (FF p) (domsize p) (MM p) (FF_ne p WF FITS) (DM_64' p WF FITS) cf r r s0' T) as
        (N & s1' & lev & n & q & H1 & C1 & F1 & _); auto; try (cbn; lia).
      { apply nv_nn. }
      { apply clash_tick; auto. }
      apply (conflict_mono fuel (Nat.max N fuel)) in E1; [|lia]. rewrite H1 in E1 by lia. injection E1 as <- _. eauto. }
  destruct C1 as (T1 & C1 & F1).
  destruct (second_half (nvars p) (FF p) (domsize p) (MM p) (FF_ne p WF FITS) (FF_0 p) (FF_DM p WF FITS)
    (DM_64' p WF FITS) cf s1 T1 C1 F1) as (N & s' & pre & H1 & _ & _ & _ & _ & _ & H7).
  pose proof (unit_mono fuel (Nat.max N fuel) s1 s ltac:(lia) E2) as E2'. rewrite H1 in E2' by lia. injection E2' as ->.
  destruct H7 as [((_ & _ & CF & _) & _)|(C & _)]; [congruence|].
  exists (pre ++ T1), s2. split; [auto|]. split; [|auto].
  destruct (bulist s1) eqn:EU; [injection E2 as <-; auto|]. eapply prop_empty; eauto.
Qed.

(** ** Literals *)

Lemma true_iff s T l : base s T -> 1 <= fst l <= nvars p -> set_true s l <-> trueL (FF p) T l.
Proof. intros B H. unfold set_true, trueL, has_value, inn. rewrite (b_cur _ _ _ _ s T B) by lia. reflexivity. Qed.

Lemma false_iff s T l : base s T -> 1 <= fst l <= nvars p -> set_false s l <-> falseL (FF p) T l.
Proof. intros B H. unfold set_false, falseL, has_value, inn. rewrite (b_cur _ _ _ _ s T B) by lia. reflexivity. Qed.

(** ** The choice without scores *)

Lemma lazy_first s ns l : bchoose_lazy s ns = Ok l ->
  (l = bnolit /\ forall n, In n ns -> exists x, bsat s (bw0 s n) = Ok x /\ x <> SatUn) \/
  exists n1 n n2, ns = n1 ++ n :: n2 /\ l = bw0 s n /\ bsat s l = Ok SatUn /\
    forall m, In m n1 -> exists x, bsat s (bw0 s m) = Ok x /\ x <> SatUn.
Proof.
  induction ns as [|n ns IH]; cbn [bchoose_lazy]; intro H.
  - injection H as <-. left. split; auto. intros n [].
  - apply bind_ok in H. destruct H as (x & E & H). destruct (match x with SatUn => true | _ => false end) eqn:EX.
    + destruct x; try discriminate. injection H as <-. right. exists [], n, ns. split; [auto|]. split; [auto|]. split; [auto|]. intros m [].
    + assert (H' : bchoose_lazy s ns = Ok l) by (destruct x; auto; discriminate).
      assert (NX : x <> SatUn) by (intros ->; discriminate).
      destruct (IH H') as [(-> & HA)|(n1 & m & n2 & -> & EL & ES & HA)].
      * left. split; auto. intros m [<-|Hm]; eauto.
      * right. exists (n :: n1), m, n2. split; [auto|]. split; [auto|]. split; [auto|]. intros k [<-|Hk]; eauto.
Qed.

Lemma settled_clause s T n c x : calm s T -> bulist s = [] -> nth_error (bcl s) n = Some c ->
  bsat s (bw0 s n) = Ok x -> x <> SatUn -> ~ set_open s (bw0 s n) /\ exists y, In y c /\ set_true s y.
Proof.
  intros (B & _ & _ & TW & ON & _) EU E EX NX.
  destruct (watch_lits _ _ _ _ s T n c B E) as (H0 & (R & _) & H1).
  destruct (bsat_cases _ _ _ _ (FF_ne p WF FITS) s T (bw0 s n) B R) as [(X & Ht & _)|[(X & Hf & _)|(X & _)]]; [| |congruence].
  - split; [intros (Q & _); apply Q; apply (true_iff s T); auto|]. exists (bw0 s n). split; auto. apply (true_iff s T); auto.
  - split; [intros (_ & Q); apply Q; apply (false_iff s T); auto|].
    destruct (Nat.eq_dec (length c) 1) as [L|L].
    + exists (bw0 s n). split; auto. apply (true_iff s T); auto.
      destruct ON as [ON|(m & Em & _)]; [|congruence]. apply (ON n c); auto.
    + destruct (TW n c E L) as (_ & G). rewrite EU in G. destruct G as [(G1 & _)|([] & _)].
      destruct (H1 L) as (H1' & (R1 & _) & _). exists (bw1 s n). split; auto. apply (true_iff s T); auto.
Qed.

Theorem bit_watch_choice s l : bvsids cf = false -> bit_decision_at cf clk r p s l -> watch_choice s l.
Proof.
  intros NV H. destruct (decision_calm s l H) as (T & s2 & C & EU & EC). pose proof C as (B & _).
  unfold bchoose in EC. rewrite NV in EC. apply bind_ok in EC. destruct EC as (l' & EL & EC). injection EC as _ ->.
  destruct (lazy_first s _ l EL) as [(-> & HA)|(n1 & n & n2 & ES & El & EX & HA)].
  - left. split; [auto|].
    assert (G : forall n c, nth_error (bcl s) n = Some c -> ~ set_open s (bw0 s n) /\ exists y, In y c /\ set_true s y).
    { intros n c E. destruct (HA n) as (x & E1 & E2); [|eapply settled_clause; eauto].
      apply in_seq. assert (n < length (bcl s))%nat by (apply nth_error_Some; congruence). lia. }
    split.
    + intros c Hc. apply In_nth_error in Hc. destruct Hc as (n & En). apply (G n c En).
    + intros n Hn. destruct (nth_error (bcl s) n) as [c|] eqn:En; [apply (G n c En)|]. apply nth_error_None in En. lia.
  - right.
    assert (LN : length n1 = n /\ (n < length (bcl s))%nat /\ forall m, (m < n)%nat -> In m n1).
    { assert (E1 : nth (length n1) (seq 0 (length (bcl s))) 0%nat = n) by (rewrite ES, nth_middle; auto).
      assert (L : (length n1 < length (bcl s))%nat).
      { rewrite <- (seq_length (length (bcl s)) 0), ES, app_length. cbn. lia. }
      rewrite seq_nth in E1 by auto. cbn in E1. subst n. split; [auto|]. split; [auto|]. intros m Hm.
      assert (E2 : nth m (seq 0 (length (bcl s))) 0%nat = m) by (rewrite seq_nth by lia; auto).
      rewrite ES, app_nth1 in E2 by auto. rewrite <- E2. apply nth_In. auto. }
    destruct LN as (LN & Ln & HIN).
    destruct (nth_error (bcl s) n) as [c|] eqn:En; [|apply nth_error_None in En; lia].
    destruct (nth_error_split _ _ En) as (before & after & Ecl & LB).
    assert (G : forall m d, (m < n)%nat -> nth_error (bcl s) m = Some d -> ~ set_open s (bw0 s m) /\ exists y, In y d /\ set_true s y).
    { intros m d Hm Em. destruct (HA m (HIN m Hm)) as (x & E1 & E2). eapply settled_clause; eauto. }
    exists before, c, after. rewrite LB. split; [auto|]. split; [|split; [|split; [auto|]]].
    + intros d Hd. apply In_nth_error in Hd. destruct Hd as (m & Em).
      assert (Lm : (m < length before)%nat) by (apply nth_error_Some; congruence).
      apply (G m d); [lia|]. rewrite Ecl, nth_error_app1; auto.
    + intros m Hm. destruct (nth_error (bcl s) m) as [d|] eqn:Em; [apply (G m d); auto|]. apply nth_error_None in Em. lia.
    + destruct (watch_lits _ _ _ _ s T n c B En) as (H0 & (R & _) & _). rewrite El. split; [auto|].
      rewrite El in EX. destruct (bsat_cases _ _ _ _ (FF_ne p WF FITS) s T (bw0 s n) B R) as [(X & _)|[(X & _)|(_ & N1 & N2)]]; try congruence.
      split; [rewrite (true_iff s T); auto|rewrite (false_iff s T); auto].
Qed.

(** ** Conflicts *)

Theorem bit_learns rc s : bit_conflict_at cf clk r p rc s ->
  exists N s' c0 c, (forall fuel, (N <= fuel)%nat -> bconflict fuel cf r rc s = Ok (s', rc)) /\
    nth_error (bcl s) (bcc s) = Some c0 /\ (forall l, In l c0 -> set_false s l) /\
    set_learns s c0 c /\ set_drives p s s' c.
Proof.
  intro H. destruct (conflict_state rc s H) as (-> & T & C & FX & LV & NB).
  destruct (conflict_ok (nvars p) (FF p) (domsize p) (MM p) (FF_ne p WF FITS) (DM_64' p WF FITS) cf r r s T nv_nn C LV FX LEN NB) as
    (N & s' & lev & n & q & H1 & C1 & F1 & U1 & HL & LV1 & NT & NF & CL1 & BK1 & _ & _ & _ & _ & En & (c & Ec & LS) & b & LE & EV).
  pose proof C as (B & LT & _ & (c' & v & x & T0 & ET & Ec' & Lc & Fc & _) & _). pose proof (b_ok _ _ _ _ s T B) as OK.
  pose proof C1 as (B1 & _ & CF1 & _).
  assert (c' = c) by congruence. subst c'.
  exists N, s', c, q. split; [auto|]. split; [auto|]. split.
  { intros l Hl. destruct (b_cls _ _ _ _ s T B _ _ Ec) as (_ & _ & OL & _). apply (false_iff s T); auto. apply (OL l Hl). }
  split; [auto|].
  destruct LE as ((NEq & NDq & OLq & _) & FQ & Ha & NFa & Hb).
  split; [auto|]. split; [lia|]. split; [auto|]. split; [congruence|]. split.
  - rewrite LV1. intros u Hu. split.
    + rewrite (b_nodes _ _ _ _ s' _ B1), (b_nodes _ _ _ _ s T B). apply cut_proj.
    + intro d. rewrite (b_cur _ _ _ _ s' _ B1), (b_cur _ _ _ _ s T B), (b_nodes _ _ _ _ s T B) by lia.
      apply (cut_D (nvars p) (FF p) (bcl s)). auto.
  - set (a := bw0 s' n) in *. destruct (OLq a Ha) as (Ra & _).
    exists a. split; [auto|]. split; [split; [rewrite (true_iff s' _ a B1 Ra); auto|rewrite (false_iff s' _ a B1 Ra); auto]|].
    assert (LB : Nat.ltb 1 (length q) = true <-> length q <> 1%nat).
    { rewrite Nat.ltb_lt. destruct q; [congruence|]. simpl. lia. }
    destruct (Nat.eq_dec (length q) 1) as [L1|L1].
    + split.
      * intros l Hl Nl. exfalso. apply Nl. destruct q as [|y [|z q]]; cbn in L1; try discriminate.
        destruct Hl as [<-|[]], Ha as [<-|[]]. auto.
      * left. rewrite LV1, EV, L1. auto.
    + destruct (Hb L1) as (Hb1 & Hb2 & Hb3 & Hb4). apply LB in L1. rewrite L1 in EV. split.
      * intros l Hl Nl. apply (false_iff s' _ l B1); [apply (OLq l Hl)|]. rewrite EV. auto.
      * right. exists b. split; [auto|]. split; [congruence|].
        apply (node_false_at (nvars p) (FF p) (domsize p) (MM p) s T b _ B (OLq b Hb1) (FQ b Hb1)). lia.
Qed.

End Steps.
