(** * The second solver: watched literals and domain reductions *)

From Verif Require Import Spec Outcome State ModelHeur ModelBuild ModelBit Base Scores BitTrail.

Definition bholds (a : Z -> Z) (c : bclause) : Prop := exists l, In l c /\ inn (a (fst l)) (snd l).

Lemma blit_eq_dec (a b : blit) : {a = b} + {a <> b}.
Proof. decide equality; apply Z.eq_dec. Qed.

Lemma in_bremove n m ns : NoDup ns -> In m (bremove n ns) <-> In m ns /\ m <> n.
Proof.
  induction ns as [|k ns IH]; [simpl; tauto|]. intro H. inversion H as [|? ? H1 H2]; subst.
  cbn [bremove]. destruct (Nat.eqb_spec k n) as [->|N].
  - simpl. split.
    + intro Hm. split; auto. intros ->. auto.
    + intros ([->|Hm] & Hn); [congruence|auto].
  - simpl. rewrite IH by auto. split.
    + intros [->|(Hm & Hn)]; auto.
    + intros ([->|Hm] & Hn); auto.
Qed.

Lemma nodup_bremove n ns : NoDup ns -> NoDup (bremove n ns).
Proof.
  induction ns as [|k ns IH]; auto. intro H. inversion H as [|? ? H1 H2]; subst.
  cbn [bremove]. destruct (Nat.eqb k n); auto. constructor; auto.
  intro Hi. apply in_bremove in Hi; tauto.
Qed.

Lemma nodup_fst_eq (c : bclause) a b : NoDup (map fst c) -> In a c -> In b c -> fst a = fst b -> a = b.
Proof.
  induction c as [|x c IH]; [simpl; tauto|]. simpl. intro H. inversion H as [|? ? H1 H2]; subst.
  intros [->|Ha] [->|Hb] E; auto.
  - exfalso. apply H1. rewrite E. apply in_map; auto.
  - exfalso. apply H1. rewrite <- E. apply in_map; auto.
Qed.

(** What the search does not change between two conflicts. *)
Definition keep (s s' : bst) : Prop :=
  bcl s' = bcl s /\ blevel s' = blevel s /\ buc s' = buc s /\ bsc s' = bsc s /\ bback s' = bback s /\
  bdec s' = bdec s /\ bunits s' = bunits s /\ brest s' = brest s /\ btick s' = btick s.

Lemma keep_refl s : keep s s.
Proof. unfold keep. tauto. Qed.

Lemma keep_trans s1 s2 s3 : keep s1 s2 -> keep s2 s3 -> keep s1 s3.
Proof. unfold keep. intuition congruence. Qed.

Section Inv.
Variable NV : Z.
Variable F : Z -> Z.
Variable DM : Z -> Z.
Variable M : (Z -> Z) -> Prop.
Hypothesis NV_nonneg : 0 <= NV.
Hypothesis F_ne : forall v, 1 <= v <= NV -> exists i, inn i (F v).

Definition okL (l : blit) : Prop :=
  1 <= fst l <= NV /\ snd l <> 0 /\ forall i, inn i (snd l) -> inn i (F (fst l)).

Definition okC (c : bclause) : Prop :=
  c <> [] /\ NoDup (map fst c) /\ (forall l, In l c -> okL l) /\ forall a, M a -> bholds a c.

Definition good (T : trail) (a b : blit) : Prop :=
  (falseL F T a -> trueL F T b) /\ (falseL F T b -> trueL F T a).

Definition pend (T : trail) (c : bclause) (a b : blit) : Prop :=
  exists w, (w = a \/ w = b) /\ ~ falseL F T w /\ forall l, In l c -> l <> w -> falseL F T l.

Definition semi (T : trail) (c : bclause) (a b : blit) : Prop :=
  exists w, (w = a \/ w = b) /\ forall l, In l c -> l <> w -> falseL F T l.

Definition wok (c : bclause) (a b : blit) : Prop :=
  In a c /\ (length c <> 1%nat -> In b c /\ fst a <> fst b).

Record base (s : bst) (T : trail) : Prop := {
  b_nv : bnv s = NV;
  b_dom : forall v, 0 <= v <= NV -> bdom s v = DM v;
  b_cur : forall v, 0 <= v <= NV -> bcur s v = D F T v;
  b_nodes : forall v, bnodes s v = proj v T;
  b_aix : baix s = Z.of_nat (length T);
  b_ok : okT NV F (bcl s) T;
  b_cls : forall n c, nth_error (bcl s) n = Some c -> okC c;
  b_watch : forall n c, nth_error (bcl s) n = Some c -> wok c (bw0 s n) (bw1 s n);
  b_rec : forall v n, 0 <= v <= NV -> (In n (brec s v) <-> exists c, nth_error (bcl s) n = Some c /\
    (fst (bw0 s n) = v \/ length c <> 1%nat /\ fst (bw1 s n) = v));
  b_recd : forall v, 0 <= v <= NV -> NoDup (brec s v);
  b_cuts : forall n c k, nth_error (bcl s) n = Some c -> length c <> 1%nat -> k < blevel s ->
    good (cut k T) (bw0 s n) (bw1 s n);
  b_sc : forall v j, nonneg (bsc s v j)
}.

Definition two (U : list nat) (T : trail) (s : bst) (n : nat) : Prop :=
  forall c, nth_error (bcl s) n = Some c -> length c <> 1%nat ->
    (In n U -> semi T c (bw0 s n) (bw1 s n)) /\
    (good T (bw0 s n) (bw1 s n) \/ In n U /\ pend T c (bw0 s n) (bw1 s n)).

Definition one (T : trail) (s : bst) (n : nat) : Prop :=
  forall c, nth_error (bcl s) n = Some c -> length c = 1%nat -> trueL F T (bw0 s n).

Definition conflict (s : bst) (T : trail) : Prop :=
  exists c v x T0, T = (v, x) :: T0 /\ nth_error (bcl s) (bcc s) = Some c /\ length c <> 1%nat /\
    (forall l, In l c -> falseL F T l) /\ fst (bw0 s (bcc s)) = v /\ ~ falseL F T0 (bw0 s (bcc s)) /\
    ~ falseL F (cut (blevel s - 1) T) (bw1 s (bcc s)).

Lemma good_sym T a b : good T a b -> good T b a.
Proof. unfold good. tauto. Qed.

Lemma pend_sym T c a b : pend T c a b -> pend T c b a.
Proof. intros (w & H & H1). exists w. tauto. Qed.

Lemma semi_sym T c a b : semi T c a b -> semi T c b a.
Proof. intros (w & H & H1). exists w. tauto. Qed.

Lemma semi_app T1 T c a b : semi T c a b -> semi (T1 ++ T) c a b.
Proof. intros (w & H & H1). exists w. split; auto. intros l Hl N. apply false_app; auto. Qed.

Lemma watch_lits s T n c : base s T -> nth_error (bcl s) n = Some c ->
  In (bw0 s n) c /\ okL (bw0 s n) /\
  (length c <> 1%nat -> In (bw1 s n) c /\ okL (bw1 s n) /\ fst (bw0 s n) <> fst (bw1 s n)).
Proof.
  intros B E. destruct (b_watch s T B n c E) as (Ha & Hb). destruct (b_cls s T B n c E) as (_ & _ & HL & _).
  split; auto. split; auto. intro N. destruct (Hb N). auto.
Qed.

Lemma bvar_ok s T v : base s T -> 0 <= v <= NV -> bvar s v = Ok tt.
Proof.
  intros B H. unfold bvar. rewrite (b_nv s T B).
  destruct (Z.leb_spec 0 v), (Z.leb_spec v NV); auto; lia.
Qed.

Lemma bget_ok s n c : nth_error (bcl s) n = Some c -> bget s n = Ok c.
Proof. intro E. unfold bget. rewrite E. auto. Qed.

Lemma bsat_cases s T l : base s T -> 1 <= fst l <= NV ->
  (bsat s l = Ok SatTrue /\ trueL F T l /\ ~ falseL F T l) \/
  (bsat s l = Ok SatFalse /\ falseL F T l /\ ~ trueL F T l) \/
  (bsat s l = Ok SatUn /\ ~ trueL F T l /\ ~ falseL F T l).
Proof.
  intros B H. unfold bsat. rewrite (bvar_ok s T) by (auto; lia). cbn [bind].
  rewrite (b_cur s T B) by lia.
  assert (NB : trueL F T l -> falseL F T l -> False).
  { apply (not_both NV F (bcl s)); auto. apply (b_ok s T B). }
  destruct (Z.eqb_spec (Z.ldiff (D F T (fst l)) (snd l)) 0) as [E|E].
  - left. split; auto. assert (trueL F T l) by (unfold trueL; apply ldiff_zero; auto).
    split; auto.
  - assert (NT : ~ trueL F T l) by (intro Ht; apply E; apply ldiff_zero; auto).
    destruct (Z.eqb_spec (Z.land (snd l) (D F T (fst l))) 0) as [E'|E'].
    + right. left. split; auto. split; auto. unfold falseL. apply land_zero; auto.
    + right. right. split; auto. split; auto. intro Hf. apply E'. apply land_zero; auto.
Qed.

Lemma base_ul s T U : base s T -> base (set_bulist s U) T.
Proof. intros []; constructor; auto. Qed.

Lemma base_conf s T b n : base s T -> base (set_bcc (set_bconf s b) n) T.
Proof. intros []; constructor; auto. Qed.

Lemma base_flip s T n c : base s T -> nth_error (bcl s) n = Some c -> length c <> 1%nat ->
  base (bflip n s) T.
Proof.
  intros B E L. destruct (watch_lits s T n c B E) as (H1 & H2 & H3). specialize (H3 L).
  destruct H3 as (H3 & H4 & H5). destruct B. unfold bflip. constructor; auto; cbn.
  - intros m d Em. destruct (Nat.eq_dec m n) as [->|N].
    + rewrite !updn_same. assert (d = c) by congruence. subst d. split; auto.
    + rewrite !updn_other by auto. auto.
  - intros v m Hv. rewrite b_rec0 by auto. destruct (Nat.eq_dec m n) as [->|N].
    + rewrite !updn_same. split; intros (d & Ed & Hd); exists d; split; auto;
        assert (d = c) by congruence; subst d; tauto.
    + rewrite !updn_other by auto. tauto.
  - intros m d k Em Ld Hk. destruct (Nat.eq_dec m n) as [->|N].
    + rewrite !updn_same. apply good_sym. eauto.
    + rewrite !updn_other by auto. eauto.
Qed.

Lemma good_nf T a b : ~ falseL F T a -> ~ falseL F T b -> good T a b.
Proof. unfold good. tauto. Qed.

Lemma good_nf_cut cl k T a b : okT NV F cl T -> ~ falseL F T a -> ~ falseL F T b -> good (cut k T) a b.
Proof.
  intros H Ha Hb. apply good_nf; intro Hc; [apply Ha | apply Hb]; eapply false_cut_T; eauto.
Qed.

Definition bmove (v : Z) (n : nat) (l : blit) (s : bst) : bst :=
  let s1 := set_brec s (upd1 (brec s) v (bremove n (brec s v))) in
  let s2 := set_brec s1 (upd1 (brec s1) (fst l) (n :: brec s1 (fst l))) in
  set_bw0 s2 (updn (bw0 s2) n l).

Lemma base_move s T n c v l : base s T -> nth_error (bcl s) n = Some c -> length c <> 1%nat ->
  fst (bw0 s n) = v -> In l c -> fst l <> v -> fst l <> fst (bw1 s n) ->
  ~ falseL F T l -> ~ falseL F T (bw1 s n) -> base (bmove v n l s) T.
Proof.
  intros B E L Ev Hl Nv Nb Fl Fb. destruct (watch_lits s T n c B E) as (H1 & H2 & H3). specialize (H3 L).
  destruct H3 as (H3 & H4 & H5). pose proof (b_cls s T B n c E) as (_ & _ & HL & _).
  pose proof (HL l Hl) as (HLl & _).
  destruct B. destruct H2 as (H2 & _). unfold bmove. constructor; auto; cbn.
  - intros m d Em. destruct (Nat.eq_dec m n) as [->|N].
    + rewrite !updn_same. assert (d = c) by congruence. subst d. split; auto.
    + rewrite !updn_other by auto. auto.
  - intros u m Hu. rewrite (upd1_other _ v _ (fst l)) by auto. destruct (Nat.eq_dec m n) as [->|N].
    + rewrite updn_same. destruct (Z.eq_dec u (fst l)) as [->|Nu].
      * rewrite upd1_same. simpl. split; auto. intros _. exists c. auto.
      * rewrite upd1_other by auto. destruct (Z.eq_dec u v) as [->|Nu'].
        -- rewrite upd1_same. rewrite in_bremove by auto. split; [tauto|].
           intros (d & Ed & [Hd|(_ & Hd)]); [congruence|]. exfalso. apply H5. congruence.
        -- rewrite upd1_other by auto. rewrite b_rec0 by auto.
           split; intros (d & Ed & Hd); exists d; split; auto; assert (d = c) by congruence; subst d; intuition congruence.
    + rewrite updn_other by auto. destruct (Z.eq_dec u (fst l)) as [->|Nu].
      * rewrite upd1_same. simpl. rewrite b_rec0 by auto. split; [intros [|]; [congruence|auto]|auto].
      * rewrite upd1_other by auto. destruct (Z.eq_dec u v) as [->|Nu'].
        -- rewrite upd1_same. rewrite in_bremove by auto. rewrite b_rec0 by auto. tauto.
        -- rewrite upd1_other by auto. auto.
  - intros u Hu. rewrite (upd1_other _ v _ (fst l)) by auto. destruct (Z.eq_dec u (fst l)) as [->|Nu].
    + rewrite upd1_same. constructor; auto. rewrite b_rec0 by auto.
      intros (d & Ed & [Hd|(_ & Hd)]); congruence.
    + rewrite upd1_other by auto. destruct (Z.eq_dec u v) as [->|Nu'].
      * rewrite upd1_same. apply nodup_bremove; auto.
      * rewrite upd1_other by auto. auto.
  - intros m d k Em Ld Hk. destruct (Nat.eq_dec m n) as [->|N].
    + rewrite updn_same. eapply good_nf_cut; eauto.
    + rewrite updn_other by auto. eauto.
Qed.

(** The loop of SwapPointer. *)
Lemma bfind_ok s T w c : base s T -> (forall l, In l c -> 1 <= fst l <= NV) ->
  exists o, bfind s w c = Ok o /\
    match o with
    | Some l => In l c /\ ~ falseL F T l /\ fst l <> fst w
    | None => forall l, In l c -> fst l <> fst w -> falseL F T l
    end.
Proof.
  intros B. induction c as [|l c IH]; intro H.
  - exists None. split; auto. intros l [].
  - destruct IH as (o & E & P); [intros m Hm; apply H; right; auto|].
    assert (Pr : match o with
      | Some l0 => In l0 (l :: c) /\ ~ falseL F T l0 /\ fst l0 <> fst w
      | None => (fst l = fst w \/ falseL F T l) -> forall l0, In l0 (l :: c) -> fst l0 <> fst w -> falseL F T l0
      end).
    { destruct o; simpl; [tauto|]. intros Hl l0 [<-|H0] H1; [tauto|auto]. }
    cbn [bfind]. specialize (H l (or_introl eq_refl)).
    assert (FW : fst l =? fst w = true -> exists o, (if fst l =? fst w then bfind s w c else Ok (Some l)) = Ok o /\
        match o with
        | Some l0 => In l0 (l :: c) /\ ~ falseL F T l0 /\ fst l0 <> fst w
        | None => forall l0, In l0 (l :: c) -> fst l0 <> fst w -> falseL F T l0
        end).
    { intro Ew. rewrite Ew. exists o. split; auto. apply Z.eqb_eq in Ew. destruct o; auto. }
    destruct (bsat_cases s T l B H) as [(-> & H1 & H2)|[(-> & H1 & H2)|(-> & H1 & H2)]]; cbn [bind].
    + destruct (fst l =? fst w) eqn:Ew; [auto|]. apply Z.eqb_neq in Ew. exists (Some l). split; auto. split; [left; auto|auto].
    + exists o. split; auto. destruct o; auto.
    + destruct (fst l =? fst w) eqn:Ew; [auto|]. apply Z.eqb_neq in Ew. exists (Some l). split; auto. split; [left; auto|auto].
Qed.

Lemma okN_persist cl T v x l : okN NV F cl T v x -> trueL F T l -> falseL F ((v, x) :: T) l -> okT NV F cl T ->
  1 <= fst l <= NV -> False.
Proof.
  intros HN Ht Hf HT Hl. apply (not_both NV F cl ((v, x) :: T) l); [split; auto|auto| |auto].
  apply (true_app F [(v, x)]); auto.
Qed.

(** One clause of the list of the changed variable; [Q]: clauses with one literal that are known to be true. *)
Lemma visit_ok (Q : nat -> Prop) X s T v x n : let T' := (v, x) :: T in
  base s T' -> blevel s = nlev x -> bconf s = false -> (forall m, Q m -> one T' s m) ->
  (forall c, nth_error (bcl s) n = Some c -> length c = 1%nat -> Q n) -> In n (brec s v) -> two (X ++ bulist s) T s n ->
  exists s', bvisit v n s = Ok s' /\ keep s s' /\ base s' T' /\
    (forall m, m <> n -> bw0 s' m = bw0 s m /\ bw1 s' m = bw1 s m) /\
    (bulist s' = bulist s \/ bulist s' = n :: bulist s) /\ (forall m, Q m -> one T' s' m) /\
    (bconf s' = false /\ two (X ++ bulist s') T' s' n \/ bconf s' = true /\ conflict s' T').
Proof.
  intros T' B LV CF ON QN IN TW. pose proof (b_ok s T' B) as OK. destruct OK as (OKN & OKT).
  assert (Hv : 1 <= v <= NV) by apply OKN.
  destruct (proj1 (b_rec s T' B v n ltac:(lia)) IN) as (c & E & WV).
  unfold bvisit. rewrite (bget_ok s n c E). cbn [bind].
  destruct (watch_lits s T' n c B E) as (WA & OA & WB).
  destruct (Nat.eq_dec (length c) 1) as [L1|L1].
  { (* one literal *)
    pose proof (ON n (QN c E L1) c E L1) as Ht.
    destruct (bsat_cases s T' (bw0 s n) B (proj1 OA)) as [(-> & _)|[(_ & _ & H)|(_ & H & _)]]; try tauto.
    cbn [bind]. exists s. split; [reflexivity|]. split; [apply keep_refl|]. split; [auto|]. split; [auto|].
    split; [left; reflexivity|]. split; [auto|]. left. split; auto.
    intros d Ed Ld. assert (d = c) by congruence. subst. congruence. }
  destruct (WB L1) as (WB1 & OB & NAB). clear WB.
  specialize (TW c E L1). destruct TW as (SEM & TW).
  destruct (bsat_cases s T' (bw0 s n) B (proj1 OA)) as [(-> & H1 & H2)|HA]; cbn [bind].
  { (* first watched literal true *)
    exists s. split; [reflexivity|]. split; [apply keep_refl|]. split; [auto|]. split; [auto|].
    split; [left; reflexivity|]. split; [auto|]. left. split; auto.
    intros d Ed Ld. assert (d = c) by congruence. subst d. split; [|left; split; [tauto|auto]].
    intro Hn. apply (semi_app [(v, x)]); auto. }
  assert (HA' : exists r, bsat s (bw0 s n) = Ok r /\ r <> SatTrue /\ ~ trueL F T' (bw0 s n)).
  { destruct HA as [(-> & _ & H)|(-> & H & _)]; eexists; (split; [reflexivity|]); split; auto; discriminate. }
  destruct HA' as (r & Er & Nr & NTA). rewrite Er. cbn [bind].
  assert (FLIP : forall m, Q m -> one T' (bflip n s) m).
  { intros m Qm d Ed Ld. unfold bflip. cbn. cbn in Ed. destruct (Nat.eq_dec m n) as [->|N].
    - assert (d = c) by congruence. subst. congruence.
    - rewrite updn_other by auto. eapply ON; eauto. }
  assert (FLIPO : forall m, m <> n -> bw0 (bflip n s) m = bw0 s m /\ bw1 (bflip n s) m = bw1 s m).
  { intros m N. unfold bflip. cbn. rewrite !updn_other by auto. auto. }
  destruct (bsat_cases s T' (bw1 s n) B (proj1 OB)) as [(EB & H1 & H2)|HB].
  { (* second watched literal true *)
    rewrite EB. cbn [bind]. exists (bflip n s). split; [destruct r; congruence|].
    split; [unfold keep, bflip; cbn; tauto|]. split; [eapply base_flip; eauto|]. split; [auto|].
    split; [left; reflexivity|]. split; [auto|]. left. split; auto.
    intros d Ed Ld. cbn in Ed. assert (d = c) by congruence. subst d. unfold bflip. cbn. rewrite !updn_same.
    split; [|left; split; [tauto|auto]].
    intro Hn. apply semi_sym. apply (semi_app [(v, x)]); auto. }
  assert (HB' : exists r', bsat s (bw1 s n) = Ok r' /\ r' <> SatTrue /\ ~ trueL F T' (bw1 s n)).
  { destruct HB as [(-> & _ & H)|(-> & H & _)]; eexists; (split; [reflexivity|]); split; auto; discriminate. }
  destruct HB' as (r' & Er' & Nr' & NTB). rewrite Er'. cbn [bind].
  (* the state with the literal of [v] first *)
  set (s1 := if fst (bw1 s n) =? v then bflip n s else s).
  assert (S1 : keep s s1 /\ base s1 T' /\ (forall m, m <> n -> bw0 s1 m = bw0 s m /\ bw1 s1 m = bw1 s m) /\
    bulist s1 = bulist s /\ bconf s1 = false /\ (forall m, Q m -> one T' s1 m) /\ fst (bw0 s1 n) = v /\
    ~ trueL F T' (bw0 s1 n) /\ ~ trueL F T' (bw1 s1 n) /\
    (In n (X ++ bulist s1) -> semi T c (bw0 s1 n) (bw1 s1 n)) /\
    (good T (bw0 s1 n) (bw1 s1 n) \/ In n (X ++ bulist s1) /\ pend T c (bw0 s1 n) (bw1 s1 n))).
  { subst s1. destruct (Z.eqb_spec (fst (bw1 s n)) v) as [Ev|Nv].
    - split; [unfold keep, bflip; cbn; tauto|]. split; [eapply base_flip; eauto|]. split; [auto|].
      split; [reflexivity|]. split; [auto|]. split; [auto|]. unfold bflip. cbn. rewrite !updn_same.
      do 3 (split; auto). split; [intro Hn; apply semi_sym; auto|]. destruct TW as [G|(G1 & G2)]; [left; apply good_sym; auto|right; split; auto; apply pend_sym; auto].
    - split; [apply keep_refl|]. do 5 (split; auto). split; [|auto]. destruct WV as [|(_ & W)]; auto. congruence. }
  clearbody s1. destruct S1 as (K1 & B1 & O1 & U1 & C1 & ON1 & V1 & NTA1 & NTB1 & SEM1 & TW1).
  assert (E1 : nth_error (bcl s1) n = Some c) by (destruct K1 as (-> & _); auto).
  destruct (watch_lits s1 T' n c B1 E1) as (WA1 & OA1 & WB1'). destruct (WB1' L1) as (WBi & OB1 & NAB1). clear WB1'.
  assert (R1 : exists r2, (let* z := bsat s1 (bw0 s1 n) in match z with SatFalse => bswap v n s1 | _ => Ok s1 end) = r2 /\
      (match r with SatTrue => Ok s | _ => match r' with SatTrue => Ok (bflip n s) | _ => r2 end end) = r2).
  { eexists. split; [reflexivity|]. destruct r, r'; auto; congruence. }
  destruct R1 as (r2 & R2 & R3).
  assert (GOAL : exists s', r2 = Ok s' /\ keep s1 s' /\ base s' T' /\
    (forall m, m <> n -> bw0 s' m = bw0 s1 m /\ bw1 s' m = bw1 s1 m) /\
    (bulist s' = bulist s1 \/ bulist s' = n :: bulist s1) /\ (forall m, Q m -> one T' s' m) /\
    (bconf s' = false /\ two (X ++ bulist s') T' s' n \/ bconf s' = true /\ conflict s' T')).
  2: { destruct GOAL as (s' & G1 & G2 & G3 & G4 & G5 & G6 & G7). exists s'.
       split; [rewrite <- G1; destruct r; try congruence; destruct r'; try congruence; rewrite <- R2; auto|].
       split; [eapply keep_trans; eauto|]. split; [auto|]. split.
       { intros m N. destruct (G4 m N), (O1 m N). split; congruence. }
       split; [rewrite <- U1; auto|]. split; auto. }
  clear R3. subst r2.
  set (a := bw0 s1 n) in *. set (b := bw1 s1 n) in *.
  assert (NBv : fst b <> v) by congruence.
  assert (FB : falseL F T' b <-> falseL F T b) by (apply false_other; auto).
  assert (TB : trueL F T' b <-> trueL F T b) by (apply true_other; auto).
  destruct (bsat_cases s1 T' a B1 (proj1 OA1)) as [(_ & H1 & _)|[(EA & FA & _)|(EA & _ & NFA)]]; [tauto| |].
  - (* falsified *)
    rewrite EA. cbn [bind]. unfold bswap. rewrite (bget_ok s1 n c E1). cbn [bind]. fold a b.
    destruct (bsat_cases s1 T' b B1 (proj1 OB1)) as [(_ & H1 & _)|[(EB & FBt & _)|(EB & _ & NFB)]]; [tauto| |].
    + (* conflict *)
      rewrite EB. cbn [bind]. eexists. split; [reflexivity|]. split; [unfold keep; cbn; tauto|].
      split; [apply base_conf; auto|]. split; [auto|]. split; [left; reflexivity|]. split; [exact ON1|].
      right. split; [reflexivity|].
      assert (NG : ~ trueL F T a).
      { intro Ht. apply (okN_persist (bcl s) T v x a OKN Ht FA OKT). apply OA1. }
      destruct TW1 as [(_ & G)|(_ & w & Hw & NFw & Hall)]; [apply FB in FBt; tauto|].
      assert (w = a) as -> by (destruct Hw as [-> | ->]; auto; apply FB in FBt; tauto).
      exists c, v, x, T. cbn. split; [reflexivity|]. split; [auto|]. split; [auto|]. split.
      { intros l Hl. destruct (blit_eq_dec l a) as [->|N]; auto. apply (false_app F [(v, x)]); auto. }
      split; [exact V1|]. split; [exact NFw|].
      intro Hc. destruct (b_cuts s1 T' B1 n c (blevel s1 - 1) E1 L1 ltac:(lia)) as (_ & G).
      specialize (G Hc). fold a in G. apply NG.
      assert (ELc : blevel s1 - 1 < nlev x) by (destruct K1 as (_ & -> & _); lia).
      unfold T' in G. rewrite cut_cons in G by lia. eapply true_cut_T; eauto.
    + (* another literal, or unit *)
      rewrite EB. cbn [bind].
      destruct (bfind_ok s1 T' b c B1) as (o & Eo & Po).
      { intros l Hl. destruct (b_cls s1 T' B1 n c E1) as (_ & _ & HL & _). apply HL; auto. }
      rewrite Eo. cbn [bind]. destruct o as [l|].
      * destruct Po as (Hl & NFl & Nlb).
        assert (Nlv : fst l <> v).
        { intro Ev. apply NFl. assert (l = a) as ->; auto.
          destruct (b_cls s1 T' B1 n c E1) as (_ & ND & _). apply (nodup_fst_eq c); auto. congruence. }
        destruct (Z.eqb_spec (fst a) v) as [_|]; [|congruence].
        assert (Hlr : 1 <= fst l <= NV) by (destruct (b_cls s1 T' B1 n c E1) as (_ & _ & HL & _); apply HL; auto).
        unfold badd_record, bvar. cbn [set_brec bnv]. rewrite (b_nv s1 T' B1).
        destruct (Z.leb_spec 0 (fst l)); [|lia]. destruct (Z.leb_spec (fst l) NV); [|lia]. cbn [andb bind].
        exists (bmove v n l s1). split; [reflexivity|]. split; [unfold keep, bmove; cbn; tauto|].
        split; [eapply base_move; eauto|]. split.
        { intros m N. unfold bmove. cbn. rewrite updn_other by auto. auto. }
        split; [left; reflexivity|]. split.
        { intros m Qm d Ed Ld. unfold bmove. cbn. cbn in Ed. destruct (Nat.eq_dec m n) as [->|N].
          - assert (d = c) by congruence. subst. congruence.
          - rewrite updn_other by auto. eapply ON1; eauto. }
        left. split; [auto|]. intros d Ed Ld. unfold bmove. cbn. rewrite updn_same.
        split; [|left; apply good_nf; auto]. intro Hn. exfalso.
        destruct (SEM1 Hn) as (w & Hw & Hall). apply NFl. apply (false_app F [(v, x)]). apply Hall; auto.
        intro. subst l. destruct Hw as [-> | ->]; auto.
      * eexists. split; [reflexivity|]. split; [unfold keep; cbn; tauto|].
        split; [apply base_ul; auto|]. split; [auto|]. split; [right; reflexivity|]. split; [exact ON1|].
        left. split; [auto|]. intros d Ed Ld. cbn in Ed. assert (d = c) by congruence. subst d.
        assert (Hall : forall l, In l c -> l <> b -> falseL F T' l).
        { intros l Hl Nl. apply Po; auto. intro Ef. apply Nl.
          destruct (b_cls s1 T' B1 n c E1) as (_ & ND & _). apply (nodup_fst_eq c); auto. }
        split; [intros _; exists b; auto|]. right. cbn.
        split; [apply in_or_app; right; left; auto|]. exists b. auto.
  - (* not falsified *)
    rewrite EA. cbn [bind]. exists s1. split; [reflexivity|]. split; [apply keep_refl|]. split; [auto|]. split; [auto|].
    split; [left; reflexivity|]. split; [auto|]. left. split; auto.
    intros d Ed Ld. assert (d = c) by congruence. subst d. fold a b.
    split; [intro Hn; apply (semi_app [(v, x)]); auto|].
    destruct TW1 as [G|(Hn & w & Hw & NFw & Hall)].
    + left. split; [tauto|]. intro Hf. exfalso. apply NTA1. apply (true_app F [(v, x)]). apply G. apply FB; auto.
    + destruct Hw as [-> | ->].
      * right. split; auto. exists a. split; auto. split; auto. intros l Hl Nl. apply (false_app F [(v, x)]); auto.
      * left. apply good_nf; auto. rewrite FB. auto.
Qed.

Lemma two_set U U' T s n : (In n U <-> In n U') -> two U T s n -> two U' T s n.
Proof. intros I H c E L. destruct (H c E L) as (S0 & G). rewrite I in *. auto. Qed.

Lemma two_grow X U U' n m T s : U' = U \/ U' = n :: U -> m <> n -> two (X ++ U) T s m -> two (X ++ U') T s m.
Proof.
  intros [-> | ->] N; auto. apply two_set. rewrite !in_app_iff. simpl. intuition congruence.
Qed.

Lemma two_eq U T s s' n : bcl s' = bcl s -> bw0 s' n = bw0 s n -> bw1 s' n = bw1 s n -> two U T s n -> two U T s' n.
Proof. intros E0 E1 E2 H c E L. rewrite E1, E2. apply H; auto. congruence. Qed.

(** The loop over the list of the changed variable. *)
Lemma update_ok X v x T ns : let T' := (v, x) :: T in forall s,
  base s T' -> blevel s = nlev x -> bconf s = false -> (forall m, one T' s m) -> NoDup ns ->
  (forall n, In n ns -> In n (brec s v) /\ two (X ++ bulist s) T s n) ->
  (forall n, ~ In n ns -> two (X ++ bulist s) T' s n) ->
  exists s', bupdate v ns s = Ok s' /\ keep s s' /\ base s' T' /\
    (forall m, In m (bulist s') -> In m (bulist s) \/ (m < length (bcl s))%nat) /\ (forall m, one T' s' m) /\
    (bconf s' = false /\ (forall n, two (X ++ bulist s') T' s' n) \/ bconf s' = true /\ conflict s' T').
Proof.
  intro T'. induction ns as [|n ns IH]; intros s B LV CF ON ND HI HO.
  - exists s. split; [reflexivity|]. split; [apply keep_refl|]. split; [auto|]. split; [auto|].
    split; auto.
  - cbn [bupdate]. rewrite CF. inversion ND as [|? ? ND1 ND2]; subst.
    destruct (HI n (or_introl eq_refl)) as (Hn1 & Hn2).
    destruct (visit_ok (fun _ => True) X s T v x n B LV CF (fun m _ => ON m) (fun _ _ _ => Logic.I) Hn1 Hn2) as
      (s1 & E1 & K1 & B1 & O1 & U1 & ON1' & R1).
    assert (ON1 : forall m, one T' s1 m) by (intro m; apply ON1'; exact Logic.I). clear ON1'.
    assert (Hv : 0 <= v <= NV) by (destruct (b_ok s T' B) as ((Q & _) & _); lia).
    assert (U1' : forall m, In m (bulist s1) -> In m (bulist s) \/ (m < length (bcl s))%nat).
    { intros m Hm. destruct U1 as [U1|U1]; rewrite U1 in Hm; auto. destruct Hm as [<-|]; auto. right.
      apply (b_rec s T' B v n Hv) in Hn1. destruct Hn1 as (c & Ec & _). eapply nth_error_lt; eauto. }
    rewrite E1. cbn [bind]. destruct R1 as [(C1 & W1)|(C1 & W1)].
    + destruct (IH s1) as (s2 & E2 & K2 & B2 & U2 & ON2 & R2); auto.
      * destruct K1 as (_ & -> & _). auto.
      * intros m Hm. assert (N : m <> n) by congruence. destruct (O1 m N) as (Q0 & Q1).
        destruct (HI m (or_intror Hm)) as (Hm1 & Hm2).
        split.
        -- apply (b_rec s1 T' B1 v m Hv). apply (b_rec s T' B v m Hv) in Hm1.
           destruct Hm1 as (c & Ec & Hc). exists c. destruct K1 as (-> & _). split; auto. rewrite Q0, Q1. auto.
        -- apply (two_grow X (bulist s) _ n); auto. apply (two_eq _ _ s); auto. destruct K1 as (-> & _); auto.
      * intros m Hm. destruct (Nat.eq_dec m n) as [->|N]; auto.
        destruct (O1 m N) as (Q0 & Q1). apply (two_grow X (bulist s) _ n); auto. apply (two_eq _ _ s); auto.
        -- destruct K1 as (-> & _); auto.
        -- apply HO. intros [|]; auto.
      * exists s2. split; [auto|]. split; [eapply keep_trans; eauto|]. split; [auto|].
        split; [|split; auto]. intros m Hm. destruct (U2 m Hm) as [|Hm2]; auto.
        right. destruct K1 as (<- & _). auto.
    + exists s1. split; [|split; [auto|split; [auto|split; [auto|split; auto]]]].
      destruct ns; cbn [bupdate]; auto. rewrite C1. auto.
Qed.

(** What the reduction to a literal records. *)
Definition new_node (s : bst) (l : blit) : node :=
  mkNode (baix s + 1) (blevel s) (buc s) (Z.ldiff (bcur s (fst l)) (snd l)).

(** Why a literal may be made true. *)
Definition cause (s : bst) (T : trail) (l : blit) : Prop :=
  match buc s with
  | None => blevel s = toplev T + 1
  | Some n => blevel s = toplev T /\ exists R, nth_error (bcl s) n = Some R /\ In l R /\
      forall l', In l' R -> l' <> l -> falseL F T l'
  end.

Lemma open_value T l : ~ trueL F T l -> exists i, inn i (D F T (fst l)) /\ ~ inn i (snd l).
Proof.
  intro H. destruct (Z.eq_dec (Z.ldiff (D F T (fst l)) (snd l)) 0) as [E|E].
  - exfalso. apply H. unfold trueL. apply ldiff_zero; auto.
  - destruct (nonzero_inn _ E) as (i & Hi). apply inn_ldiff in Hi. eauto.
Qed.

Lemma nfalse_value T l : ~ falseL F T l -> exists i, inn i (D F T (fst l)) /\ inn i (snd l).
Proof.
  intro H. destruct (Z.eq_dec (Z.land (snd l) (D F T (fst l))) 0) as [E|E].
  - exfalso. apply H. unfold falseL. apply land_zero; auto.
  - destruct (nonzero_inn _ E) as (i & Hi). apply inn_land in Hi. destruct Hi. eauto.
Qed.

Lemma new_node_ok s T l : base s T -> 1 <= fst l <= NV -> ~ trueL F T l -> ~ falseL F T l -> cause s T l ->
  okN NV F (bcl s) T (fst l) (new_node s l).
Proof.
  intros B Hl Nt Nf Ca. unfold new_node. split; [auto|]. cbn [nidx nvals nreason nlev].
  rewrite (b_cur s T B) by lia. split; [rewrite (b_aix s T B); auto|]. split; [|split; [|split]].
  - destruct (open_value T l Nt) as (i & Hi). apply (inn_nonzero i). apply inn_ldiff; auto.
  - intros i Hi. apply inn_ldiff in Hi. tauto.
  - destruct (nfalse_value T l Nf) as (i & Hi1 & Hi2). exists i. split; auto. rewrite inn_ldiff. tauto.
  - unfold cause in Ca. destruct (buc s) as [n|]; auto. destruct Ca as (Ca & R & ER & HR & HA). split; auto.
    exists R, (snd l). split; [auto|]. split; [destruct l; auto|]. split.
    + intros i Hi. apply inn_ldiff in Hi. tauto.
    + intros l' Hl' N. apply HA; auto. intros ->. auto.
Qed.

Lemma new_node_true s T l : base s T -> 1 <= fst l <= NV -> trueL F ((fst l, new_node s l) :: T) l.
Proof.
  intros B Hl i Hi. apply D_cons in Hi. destruct Hi as (Hi & Hn). specialize (Hn eq_refl).
  unfold new_node in Hn. cbn [nvals] in Hn. rewrite (b_cur s T B) in Hn by lia.
  destruct (inn_dec i (snd l)); auto. exfalso. apply Hn. apply inn_ldiff. auto.
Qed.

Lemma reduce_ok X s T l : let T' := (fst l, new_node s l) :: T in
  base s T -> 1 <= fst l <= NV -> ~ trueL F T l -> ~ falseL F T l -> cause s T l -> bconf s = false ->
  (forall n, two (X ++ bulist s) T s n) -> (forall m, one T' s m) ->
  exists s', breduce s l = Ok s' /\ keep s s' /\ base s' T' /\
    (forall m, In m (bulist s') -> In m (bulist s) \/ (m < length (bcl s))%nat) /\ (forall m, one T' s' m) /\
    (bconf s' = false /\ (forall n, two (X ++ bulist s') T' s' n) \/ bconf s' = true /\ conflict s' T').
Proof.
  intros T' B Hl Nt Nf Ca CF TW ON.
  pose proof (new_node_ok s T l B Hl Nt Nf Ca) as ON'. unfold breduce.
  rewrite (bvar_ok s T) by (auto; lia). cbn [bind].
  assert (NZ : Z.ldiff (bcur s (fst l)) (snd l) <> 0) by apply ON'.
  destruct (Z.eqb_spec (Z.ldiff (bcur s (fst l)) (snd l)) 0) as [E|_]; [congruence|].
  fold (new_node s l). cbn [set_baix set_bnodes set_bcur baix blevel buc bcur brec bnodes].
  match goal with |- context [bupdate _ _ ?x] => set (s1 := x) end.
  assert (B1 : base s1 T').
  { pose proof (b_cur s T B) as BC. destruct B. subst s1. constructor; cbn -[proj cut D okT length]; auto.
    - intros v Hv. unfold T'. cbn [D]. destruct (Z.eqb_spec (fst l) v) as [<-|N].
      + rewrite upd1_same. apply inn_ext. intro i. rewrite inn_land, inn_ldiff. cbn [new_node nvals]. rewrite inn_ldiff.
        rewrite BC by lia. destruct (inn_dec i (snd l)); tauto.
      + rewrite upd1_other by auto. auto.
    - intro v. unfold T'. rewrite proj_cons. destruct (Z.eqb_spec (fst l) v) as [<-|N].
      + rewrite upd1_same. f_equal; auto.
      + rewrite upd1_other by auto. auto.
    - unfold T'. cbn [length]. rewrite b_aix0. lia.
    - split; auto.
    - intros n c k En Lc Hk. unfold T'. rewrite cut_cons; [|cbn; lia]. eauto. }
  destruct (update_ok X (fst l) (new_node s l) T (brec s (fst l)) s1) as (s2 & E2 & K2 & B2 & U2 & ON2 & R2); auto.
  - apply (b_recd s T B); lia.
  - intros n Hn. split; auto.
    apply (two_eq _ _ s); auto.
  - intros n Hn. apply (two_eq _ _ s); auto. intros c Ec Lc. fold T'.
    assert (NR : fst (bw0 s n) <> fst l /\ fst (bw1 s n) <> fst l).
    { split; intro Ef; apply Hn; apply (b_rec s T B); try lia; exists c; auto. }
    destruct NR as (N0 & N1).
    destruct (TW n c Ec Lc) as (SEM & G). split; [intro Hn'; apply (semi_app [(fst l, new_node s l)]); auto|].
    destruct G as [G|(G1 & w & Gw & Gn & Ga)].
    + left. destruct G as (G1 & G2). unfold good, T'. rewrite !false_other, !true_other by auto. auto.
    + right. split; auto. exists w. split; auto. split.
      * unfold T'. rewrite false_other; auto. destruct Gw as [-> | ->]; auto.
      * intros l' H1 H2. apply (false_app F [(fst l, new_node s l)]). auto.
  - exists s2. split; [auto|]. split; [destruct K2 as (K2 & K3); split; auto|]. auto.
Qed.

(** ** Unit propagation *)

Lemma base_units s T x : base s T -> base (set_bunits s x) T.
Proof. intros []; constructor; auto. Qed.

Lemma base_uc s T x : base s T -> base (set_buc s x) T.
Proof. intros []; constructor; auto. Qed.

Lemma base_dec s T x : base s T -> base (set_bdec s x) T.
Proof. intros []; constructor; auto. Qed.

Lemma base_tick s T x : base s T -> base (set_btick s x) T.
Proof. intros []; constructor; auto. Qed.

Lemma pend_true cl T c a b l : okT NV F cl T -> pend T c a b -> In l c -> okL l -> trueL F T l -> good T a b.
Proof.
  intros OK (w & Hw & Nw & Ha) Hl (Rl & _) Ht.
  assert (l = w) as ->.
  { destruct (blit_eq_dec l w) as [|N]; auto. exfalso. apply (not_both NV F cl T l); auto. }
  destruct Hw as [-> | ->]; split; tauto.
Qed.

Definition single (s : bst) (n : nat) : Prop := exists c, nth_error (bcl s) n = Some c /\ length c = 1%nat.

Definition ones (s : bst) (T : trail) : Prop :=
  (forall m, one T s m) \/
  exists n, bulist s = [n] /\ single s n /\ ~ falseL F T (bw0 s n) /\ forall m, m <> n -> one T s m.

Definition calm (s : bst) (T : trail) : Prop :=
  base s T /\ blevel s = toplev T /\ bconf s = false /\ (forall n, two (bulist s) T s n) /\ ones s T /\
  forall n, In n (bulist s) -> (n < length (bcl s))%nat.

Definition clash (s : bst) (T : trail) : Prop :=
  base s T /\ blevel s = toplev T /\ bconf s = true /\ conflict s T /\ (forall m, one T s m).

(** What propagation does not change. *)
Definition keepP (s s' : bst) : Prop :=
  bcl s' = bcl s /\ blevel s' = blevel s /\ bsc s' = bsc s /\ bback s' = bback s /\
  bdec s' = bdec s /\ brest s' = brest s /\ btick s' = btick s.

Lemma keepP_refl s : keepP s s.
Proof. unfold keepP. tauto. Qed.

Lemma keepP_trans s1 s2 s3 : keepP s1 s2 -> keepP s2 s3 -> keepP s1 s3.
Proof. unfold keepP. intuition congruence. Qed.

Lemma keep_P s s' : keep s s' -> keepP s s'.
Proof. unfold keep, keepP. intuition congruence. Qed.

Definition sizeT (T : trail) : nat := list_sum (map (fun v => bcount (D F T v)) (zrange 1 NV)).

Lemma filter_length_lt {A} (f g : A -> bool) l : (forall x, In x l -> f x = true -> g x = true) ->
  (exists x, In x l /\ g x = true /\ f x = false) -> (length (filter f l) < length (filter g l))%nat.
Proof.
  intros H (x & Hx & Gx & Fx).
  assert (LE : forall l', (forall x, In x l' -> f x = true -> g x = true) -> (length (filter f l') <= length (filter g l'))%nat).
  { clear. induction l' as [|y l' IH]; intro H; auto. cbn [filter].
    assert (length (filter f l') <= length (filter g l'))%nat by (apply IH; intros; apply H; simpl; auto).
    destruct (f y) eqn:Fy; [rewrite (H y) by (simpl; auto); simpl; lia|]. destruct (g y); simpl; lia. }
  induction l as [|y l IH]; [destruct Hx|]. cbn [filter]. destruct Hx as [<-|Hx].
  - rewrite Fx, Gx. simpl. assert (length (filter f l) <= length (filter g l))%nat by (apply LE; intros; apply H; simpl; auto). lia.
  - assert (length (filter f l) < length (filter g l))%nat by (apply IH; auto; intros; apply H; simpl; auto).
    destruct (f y) eqn:Fy; [rewrite (H y) by (simpl; auto); simpl; lia|]. destruct (g y); simpl; lia.
Qed.

Lemma list_sum_lt {A} (f g : A -> nat) l : (forall x, In x l -> (f x <= g x)%nat) ->
  (exists x, In x l /\ (f x < g x)%nat) -> (list_sum (map f l) < list_sum (map g l))%nat.
Proof.
  intros H (x & Hx & Lx).
  assert (LE : forall l', (forall x, In x l' -> (f x <= g x)%nat) -> (list_sum (map f l') <= list_sum (map g l'))%nat).
  { clear. induction l' as [|y l' IH]; intro H; auto. simpl. specialize (H y (or_introl eq_refl)) as Hy.
    assert (list_sum (map f l') <= list_sum (map g l'))%nat by (apply IH; intros; apply H; simpl; auto). lia. }
  induction l as [|y l IH]; [destruct Hx|]. simpl. specialize (H y (or_introl eq_refl)) as Hy.
  destruct Hx as [<-|Hx].
  - assert (list_sum (map f l) <= list_sum (map g l))%nat by (apply LE; intros; apply H; simpl; auto). lia.
  - assert (list_sum (map f l) < list_sum (map g l))%nat by (apply IH; auto; intros; apply H; simpl; auto). lia.
Qed.

Hypothesis F_64 : forall v i, 1 <= v <= NV -> inn i (F v) -> i < max_domain.

Lemma size_cons cl T v x : okN NV F cl T v x -> (sizeT ((v, x) :: T) < sizeT T)%nat.
Proof.
  intros (Hv & _ & Hz & Hs & _). unfold sizeT. apply list_sum_lt.
  - intros u Hu. apply Nat.lt_eq_cases. destruct (Z.eq_dec v u) as [->|N].
    + left. unfold bcount. apply filter_length_lt.
      * intros i _ Hi. change (inn i (D F ((u, x) :: T) u)) in Hi. apply D_cons in Hi. apply Hi.
      * destruct (nonzero_inn _ Hz) as (i & Hi). specialize (Hs i Hi). exists i. split; [|split; auto].
        -- apply in_zrange. pose proof (inn_nonneg _ _ Hi). apply D_full in Hs. pose proof (F_64 u i Hv Hs). lia.
        -- destruct (Z.testbit (D F ((u, x) :: T) u) i) eqn:Eb; auto. exfalso.
           change (inn i (D F ((u, x) :: T) u)) in Eb. apply D_cons in Eb. apply Eb; auto.
    + right. rewrite D_other by auto. auto.
  - exists v. split; [apply in_zrange; lia|]. unfold bcount. apply filter_length_lt.
    + intros i _ Hi. change (inn i (D F ((v, x) :: T) v)) in Hi. apply D_cons in Hi. apply Hi.
    + destruct (nonzero_inn _ Hz) as (i & Hi). specialize (Hs i Hi). exists i. split; [|split; auto].
      * apply in_zrange. pose proof (inn_nonneg _ _ Hi). apply D_full in Hs. pose proof (F_64 v i Hv Hs). lia.
      * destruct (Z.testbit (D F ((v, x) :: T) v) i) eqn:Eb; auto. exfalso.
        change (inn i (D F ((v, x) :: T) v)) in Eb. apply D_cons in Eb. apply Eb; auto.
Qed.

Lemma size_bound cl T : okT NV F cl T -> (length T + sizeT T <= sizeT [])%nat.
Proof.
  induction T as [|(v, x) T IH]; [simpl; lia|]. intros (HN & HT). specialize (IH HT).
  pose proof (size_cons cl T v x HN). simpl length. lia.
Qed.

Lemma one_push s T l m : one T s m -> one ((fst l, new_node s l) :: T) s m.
Proof. intros H c E L. apply (true_app F [(fst l, new_node s l)]). eauto. Qed.

Lemma prop_ok k : forall U s T, (sizeT T <= k)%nat -> bulist s = U -> calm s T ->
  exists N s' pre, (forall fuel, (N <= fuel)%nat -> bprop fuel s = Ok s') /\ keepP s s' /\
    (forall e, In e pre -> nlev (snd e) = blevel s) /\ bulist s' = [] /\
    (forall n rest, U = n :: rest -> ~ trueL F T (bw0 s n) -> ~ falseL F T (bw0 s n) -> pre <> []) /\
    (calm s' (pre ++ T) \/ clash s' (pre ++ T) /\ pre <> []).
Proof.
  induction k as [k IHk] using lt_wf_ind. induction U as [|n rest IHU]; intros s T Hk EU C.
  - exists 1%nat, s, []. destruct C as (B & LV & CF & TW & ON & ID). split.
    { intros fuel Hf. destruct fuel; [lia|]. cbn [bprop]. rewrite CF, EU. auto. }
    split; [apply keepP_refl|]. split; [intros e []|]. split; [auto|]. split; [discriminate|].
    left. repeat (split; auto).
  - pose proof C as (B & LV & CF & TW & ON & ID). rewrite EU in TW, ID.
    destruct (lt_nth_error (bcl s) n (ID n (or_introl eq_refl))) as (c & E).
    set (s0 := set_bulist (set_buc s (Some n)) rest).
    assert (B0 : base s0 T) by (apply base_ul, base_uc; auto).
    assert (K0 : keepP s s0) by (unfold keepP; cbn; tauto).
    destruct (watch_lits s T n c B E) as (WA & OA & WB).
    assert (STEP : forall f, bprop (S f) s =
      let* x := bsat s0 (bw0 s0 n) in
      match x with
      | SatUn => let* s := breduce s0 (bw0 s0 n) in bprop f (set_bunits s (bunits s + 1))
      | _ => if Nat.ltb 1 (length c) then
               let* y := bsat s0 (bw1 s0 n) in
               match y with
               | SatUn => let* s := breduce s0 (bw1 s0 n) in bprop f (set_bunits s (bunits s + 1))
               | _ => bprop f s0
               end
             else bprop f s0
      end).
    { intro f. cbn [bprop]. rewrite CF, EU. fold s0. rewrite (bget_ok s0 n c E). reflexivity. }
    (* the clause is dropped *)
    assert (SKIP : (forall f, bprop (S f) s = bprop f s0) -> (trueL F T (bw0 s n) \/ falseL F T (bw0 s n)) ->
       calm s0 T ->
       exists N s' pre, (forall fuel, (N <= fuel)%nat -> bprop fuel s = Ok s') /\ keepP s s' /\
       (forall e, In e pre -> nlev (snd e) = blevel s) /\ bulist s' = [] /\
       (forall n0 rest0, n :: rest = n0 :: rest0 -> ~ trueL F T (bw0 s n0) -> ~ falseL F T (bw0 s n0) -> pre <> []) /\
       (calm s' (pre ++ T) \/ clash s' (pre ++ T) /\ pre <> [])).
    { intros E1 NO C0. destruct (IHU s0 T Hk eq_refl C0) as (N & s' & pre & R & K & LVp & U' & _ & FIN).
      exists (S N), s', pre. split.
      { intros fuel Hf. destruct fuel; [lia|]. rewrite E1. apply R. lia. }
      split; [apply (keepP_trans s s0); [exact K0|exact K]|]. split; [exact LVp|]. split; [auto|]. split; [|auto].
      intros n0 rest0 En Nt Nf. injection En as <- <-. tauto. }
    (* the literal [l] is made true *)
    assert (DO : forall l, In l c -> okL l -> ~ trueL F T l -> ~ falseL F T l ->
       (forall l', In l' c -> l' <> l -> falseL F T l') ->
       (forall m, m <> n \/ length c <> 1%nat -> one T s m) -> (length c = 1%nat -> l = bw0 s n) ->
       (forall f, bprop (S f) s = let* s := breduce s0 l in bprop f (set_bunits s (bunits s + 1))) ->
       exists N s' pre, (forall fuel, (N <= fuel)%nat -> bprop fuel s = Ok s') /\ keepP s s' /\
       (forall e, In e pre -> nlev (snd e) = blevel s) /\ bulist s' = [] /\
       (forall n0 rest0, n :: rest = n0 :: rest0 -> ~ trueL F T (bw0 s n0) -> ~ falseL F T (bw0 s n0) -> pre <> []) /\
       (calm s' (pre ++ T) \/ clash s' (pre ++ T) /\ pre <> [])).
    { intros l Hl OL Nt Nf Hall HON H1 E1.
      pose proof (proj1 OL) as Rl.
      assert (CA : cause s0 T l).
      { unfold cause. cbn. split; [auto|]. exists c. auto. }
      set (T' := (fst l, new_node s0 l) :: T).
      assert (ON' : forall m, one T' s0 m).
      { intros m d Ed Ld. cbn in Ed. cbn. destruct (Nat.eq_dec m n) as [->|Nm].
        - assert (d = c) by congruence. subst d. rewrite <- (H1 Ld). apply (new_node_true s0 T l); auto.
        - apply (true_app F [(fst l, new_node s0 l)]). eapply HON; eauto. }
      destruct (reduce_ok [n] s0 T l B0 Rl Nt Nf CA CF TW ON') as (s1 & E2 & K1 & B1 & U1 & ON1 & R1).
      fold T' in B1, ON1, R1.
      assert (K1' : keepP s (set_bunits s1 (bunits s1 + 1))).
      { apply (keepP_trans s s0); auto. apply (keepP_trans s0 s1); [apply keep_P; auto|]. unfold keepP; cbn; tauto. }
      assert (Hid : forall m, In m (bulist s1) -> (m < length (bcl s1))%nat).
      { destruct K1 as (-> & _). intros m Hm. destruct (U1 m Hm) as [Hm1|]; auto. apply ID. right. auto. }
      assert (TOP : blevel s1 = toplev T').
      { destruct K1 as (_ & -> & _). reflexivity. }
      pose proof (new_node_ok s0 T l B0 Rl Nt Nf CA) as HN.
      pose proof (size_cons (bcl s0) T (fst l) (new_node s0 l) HN) as SZ. fold T' in SZ.
      destruct R1 as [(C1 & W1)|(C1 & W1)].
      - set (s2 := set_bunits s1 (bunits s1 + 1)).
        assert (Cs2 : calm s2 T').
        { split; [apply base_units; auto|]. split; [auto|]. split; [auto|]. split; [|split; [left; exact ON1|exact Hid]].
          intros m d Ed Ld. cbn in Ed. destruct (W1 m d Ed Ld) as (SEM & G). cbn. split.
          { intro Hm. apply SEM. right. auto. }
          destruct G as [G|(Gm & G)]; auto. destruct Gm as [<-|Gm]; [|auto]. left.
          assert (d = c) by (destruct K1 as (K1 & _); rewrite K1 in Ed; cbn in Ed; congruence). subst d.
          apply (pend_true (bcl s1) T' c _ _ l); auto; [apply (b_ok s1 T' B1)|]. apply (new_node_true s0 T l); auto. }
        destruct (IHk (sizeT T') ltac:(lia) (bulist s2) s2 T' (le_n _) eq_refl Cs2) as (N & s' & pre & R & K & LVp & U' & _ & FIN).
        exists (S N), s', (pre ++ [(fst l, new_node s0 l)]). split.
        { intros fuel Hf. destruct fuel; [lia|]. rewrite E1, E2. cbn [bind]. apply R. lia. }
        split; [apply (keepP_trans s s2); [exact K1'|exact K]|]. split.
        { intros e He. apply in_app_or in He. destruct He as [He|[<-|[]]].
          - rewrite (LVp e He). destruct K1' as (_ & K1' & _). exact K1'.
          - reflexivity. }
        split; [auto|]. split; [intros; destruct pre; discriminate|].
        rewrite <- app_assoc. cbn [app]. fold T'. destruct FIN as [FIN|(FIN & _)]; auto. right. split; auto. destruct pre; discriminate.
      - exists 2%nat, (set_bulist (set_bunits s1 (bunits s1 + 1)) []), [(fst l, new_node s0 l)]. split.
        { intros fuel Hf. destruct fuel as [|[|f]]; try lia. rewrite E1, E2. cbn [bind]. cbn [bprop].
          cbn [set_bunits bconf]. rewrite C1. reflexivity. }
        split; [eapply keepP_trans; [exact K1'|unfold keepP; cbn; tauto]|]. split.
        { intros e [<-|[]]. reflexivity. }
        split; [auto|]. split; [intros; discriminate|]. right. split; [|discriminate]. cbn [app]. fold T'.
        split; [apply base_ul, base_units; auto|]. split; [auto|]. split; [auto|]. split; [exact W1|exact ON1]. }
    assert (TWr : (forall m, one T s m) \/ rest = [] /\ length c = 1%nat /\ ~ falseL F T (bw0 s n) /\ forall m, m <> n -> one T s m).
    { destruct ON as [ON|(n1 & En & (d & Ed & Ld) & Hf & Hm)]; auto. rewrite EU in En. injection En as -> ->. right.
      assert (d = c) by congruence. subst d. auto. }
    assert (IDr : forall m, In m rest -> (m < length (bcl s))%nat) by (intros m Hm; apply ID; right; auto).
    assert (TWm : forall m, m <> n -> two rest T s m).
    { intros m Hm. apply (two_set (n :: rest)); auto. simpl. intuition congruence. }
    destruct (Nat.eq_dec (length c) 1) as [L1|L1].
    + assert (TWn : forall m, two rest T s m).
      { intro m. destruct (Nat.eq_dec m n) as [->|Nm]; auto. intros d Ed Ld. assert (d = c) by congruence. subst. congruence. }
      assert (NTN : Nat.ltb 1 (length c) = false) by (rewrite L1; auto).
      destruct (bsat_cases s0 T (bw0 s n) B0 (proj1 OA)) as [(ES & Ht & Nf)|[(ES & Hf & Nt)|(ES & Nt & Nf)]].
      * apply SKIP; auto.
        { intro f. rewrite STEP. change (bw0 s0 n) with (bw0 s n). rewrite ES. cbn [bind]. rewrite NTN. auto. }
        split; [auto|]. split; [auto|]. split; [auto|]. split; [exact TWn|]. split; [|exact IDr]. left.
        destruct TWr as [|(_ & _ & _ & Hm)]; auto. intro m. destruct (Nat.eq_dec m n) as [->|Nm]; [|apply Hm; auto].
        intros d Ed Ld. exact Ht.
      * exfalso. destruct TWr as [Ho|(_ & _ & Hn & _)]; [|auto]. specialize (Ho n c E L1). auto.
      * apply (DO (bw0 s n)); auto.
        { intros l' Hl' N'. exfalso. apply N'. destruct c as [|y [|z c]]; simpl in L1; try discriminate.
          destruct WA as [<-|[]], Hl' as [<-|[]]. auto. }
        { intros m [Hm|Hm]; [|congruence]. destruct TWr as [|(_ & _ & _ & Ho)]; auto. }
        { intro f. rewrite STEP. change (bw0 s0 n) with (bw0 s n). rewrite ES. reflexivity. }
    + destruct (WB L1) as (WB1 & OB & NAB).
      assert (ON1 : forall m, one T s m) by (destruct TWr as [|(_ & X & _)]; [auto|congruence]).
      assert (NTN : Nat.ltb 1 (length c) = true).
      { apply Nat.ltb_lt. destruct c as [|y [|z c]]; simpl in *; [tauto|lia|lia]. }
      destruct (TW n c E L1) as (SEM & GP). destruct (SEM (or_introl eq_refl)) as (w & Hw & Hall).
      assert (DROP : (trueL F T (bw0 s n) \/ falseL F T (bw0 s n)) -> (trueL F T (bw1 s n) \/ falseL F T (bw1 s n)) -> calm s0 T).
      { intros HA HB. split; [auto|]. split; [auto|]. split; [auto|]. split; [|split; [left; exact ON1|exact IDr]].
        intro m. destruct (Nat.eq_dec m n) as [->|Nm]; [|apply TWm; auto].
        intros d Ed Ld. cbn in Ed. assert (d = c) by congruence. subst d. split.
        { intros _. exists w. auto. }
        left. cbn. destruct GP as [|(_ & GP)]; auto. destruct GP as (w' & Hw' & Nw' & Hall').
        assert (Q : In w' c /\ okL w' /\ trueL F T w') by (destruct Hw' as [-> | ->]; tauto).
        apply (pend_true (bcl s) T c _ _ w'); try apply Q; [apply (b_ok s T B)|exists w'; auto]. }
      assert (OW : forall l, In l c -> ~ falseL F T l -> l = w).
      { intros l Hl Nf. destruct (blit_eq_dec l w); auto. exfalso. auto. }
      destruct (bsat_cases s0 T (bw0 s n) B0 (proj1 OA)) as [(ES & H1 & H2)|[(ES & H1 & H2)|(ES & Nt & Nf)]].
      * destruct (bsat_cases s0 T (bw1 s n) B0 (proj1 OB)) as [(ES' & H3 & H4)|[(ES' & H3 & H4)|(ES' & Nt & Nf)]].
        -- apply SKIP; auto. intro f. rewrite STEP. change (bw0 s0 n) with (bw0 s n). change (bw1 s0 n) with (bw1 s n).
           rewrite ES. cbn [bind]. rewrite NTN, ES'. reflexivity.
        -- apply SKIP; auto. intro f. rewrite STEP. change (bw0 s0 n) with (bw0 s n). change (bw1 s0 n) with (bw1 s n).
           rewrite ES. cbn [bind]. rewrite NTN, ES'. reflexivity.
        -- exfalso. apply NAB. f_equal. rewrite (OW (bw0 s n)), (OW (bw1 s n)) by auto. auto.
      * destruct (bsat_cases s0 T (bw1 s n) B0 (proj1 OB)) as [(ES' & H3 & H4)|[(ES' & H3 & H4)|(ES' & Nt & Nf)]].
        -- apply SKIP; auto. intro f. rewrite STEP. change (bw0 s0 n) with (bw0 s n). change (bw1 s0 n) with (bw1 s n).
           rewrite ES. cbn [bind]. rewrite NTN, ES'. reflexivity.
        -- apply SKIP; auto. intro f. rewrite STEP. change (bw0 s0 n) with (bw0 s n). change (bw1 s0 n) with (bw1 s n).
           rewrite ES. cbn [bind]. rewrite NTN, ES'. reflexivity.
        -- apply (DO (bw1 s n)); auto.
           ++ rewrite (OW (bw1 s n)) by auto. auto.
           ++ congruence.
           ++ intro f. rewrite STEP. change (bw0 s0 n) with (bw0 s n). change (bw1 s0 n) with (bw1 s n).
              rewrite ES. cbn [bind]. rewrite NTN, ES'. reflexivity.
      * apply (DO (bw0 s n)); auto.
        -- rewrite (OW (bw0 s n)) by auto. auto.
        -- intro f. rewrite STEP. change (bw0 s0 n) with (bw0 s n). rewrite ES. reflexivity.
Qed.

End Inv.
