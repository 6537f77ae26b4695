(** * Facts about linked watch lists *)

From Verif Require Import Spec Outcome State ModelCounter ModelHeur ModelLearn ModelWatch ModelSearch ModelBuild ModelHeap
  HeapSpec Base.

(** ** Linked lists *)

Lemma linked_frame m m' : forall ps ns prv nxt, (forall p, In p ps -> m' p = m p) -> linked m prv ps ns nxt -> linked m' prv ps ns nxt.
Proof.
  induction ps as [|p ps IH]; intros [|n ns] prv nxt F H; cbn [linked] in *; auto. destruct H as (H1 & H2). split.
  - rewrite F by (left; auto). auto.
  - apply IH; auto. intros; apply F; right; auto.
Qed.

Lemma linked_length m : forall ps ns prv nxt, linked m prv ps ns nxt -> length ps = length ns.
Proof. induction ps as [|p ps IH]; intros [|n ns] prv nxt H; cbn [linked] in *; auto; try contradiction. cbn. f_equal. eapply IH, H. Qed.

Lemma linked_app m : forall ps1 ps2 ns1 ns2 prv nxt, length ps1 = length ns1 ->
  (linked m prv (ps1 ++ ps2) (ns1 ++ ns2) nxt <-> linked m prv ps1 ns1 (first_or ps2 nxt) /\ linked m (last_or prv ps1) ps2 ns2 nxt).
Proof.
  induction ps1 as [|p ps1 IH]; intros ps2 [|n ns1] ns2 prv nxt L; try discriminate; cbn [app linked last_or fold_left].
  - tauto.
  - injection L as L. rewrite IH by auto. replace (first_or (ps1 ++ ps2) nxt) with (first_or ps1 (first_or ps2 nxt)) by (destruct ps1; reflexivity).
    unfold last_or. tauto.
Qed.

Lemma linked_alive m : forall ps ns prv nxt p, linked m prv ps ns nxt -> In p ps -> m p <> None.
Proof.
  induction ps as [|q ps IH]; intros [|n ns] prv nxt p H I; try destruct I; cbn [linked] in H; try contradiction; destruct H as (H1 & H2).
  - subst. congruence.
  - eapply IH; eauto.
Qed.

(** Exchanging the ends. *)
Lemma linked_next m prv nxt nxt' : forall ps ns q k r, linked m prv (ps ++ [q]) (ns ++ [k]) nxt -> length ps = length ns -> NoDup (ps ++ [q]) ->
  m q = Some r -> linked (updn m q (Some (with_next r nxt'))) prv (ps ++ [q]) (ns ++ [k]) nxt'.
Proof.
  intros ps ns q k r H L N E. apply linked_app in H; auto. destruct H as (H1 & H2). apply linked_app; auto.
  cbn [first_or linked] in *. destruct H2 as (H2 & _). split.
  - eapply linked_frame; [|exact H1]. intros p I. apply updn_other. intros ->. apply NoDup_remove_2 in N. rewrite app_nil_r in N. auto.
  - split; auto. rewrite updn_same. rewrite E in H2. injection H2 as ->. reflexivity.
Qed.

Lemma linked_prev m prv prv' nxt : forall ps ns q k r, linked m prv (q :: ps) (k :: ns) nxt -> ~ In q ps ->
  m q = Some r -> linked (updn m q (Some (with_prev r prv'))) prv' (q :: ps) (k :: ns) nxt.
Proof.
  intros ps ns q k r H N E. cbn [linked] in *. destruct H as (H1 & H2). split.
  - rewrite updn_same. rewrite E in H1. injection H1 as ->. reflexivity.
  - eapply linked_frame; [|exact H2]. intros p I. apply updn_other. intros ->. auto.
Qed.

Lemma last_or_app prv ps q : last_or prv (ps ++ [q]) = Some q.
Proof. unfold last_or. rewrite fold_left_app. reflexivity. Qed.

Lemma stored_alive h A W l p : stored h A W -> In p (A l) -> exists r, mem h p = Some r.
Proof.
  intros (S & _) I. destruct (S l) as (_ & H). pose proof (linked_alive _ _ _ _ _ _ H I). destruct (mem h p); [eauto|congruence].
Qed.
Lemma stored_below h A W l p : stored h A W -> In p (A l) -> (p < brk h)%nat.
Proof. intros S I. destruct (stored_alive h A W l p S I) as (r & E). destruct S as (_ & _ & _ & S). apply S. congruence. Qed.

(** ** addRecord *)

Definition lists_add (W : lit -> list nat) (l : lit) (n : nat) : lit -> list nat := updl W l (n :: W l).

Lemma add_stored s h A W l n : stored h A W -> lit_ok (tr s) l = true ->
  exists h', h_add (s, h) l n = Ok (s, h') /\ stored h' (lists_add A l (brk h)) (lists_add W l n).
Proof.
  intros ST C. pose proof ST as (S1 & S2 & S3 & S4). unfold h_add, chk. rewrite C. cbn [bind alloc top].
  destruct (S1 l) as (T & LK).
  assert (NF : forall l', ~ In (brk h) (A l')). { intros l' I. apply (stored_below h A W l') in I; auto. lia. }
  set (m1 := updn (mem h) (brk h) (Some (mkRec n (top h l) None))).
  assert (LO : forall ps ns prv nxt, ~ In (brk h) ps -> linked (mem h) prv ps ns nxt -> linked m1 prv ps ns nxt).
  { intros ps ns prv nxt I H. eapply linked_frame; [|exact H]. intros p Hp. unfold m1. apply updn_other. intros ->. auto. }
  assert (FIN : forall m2, linked m2 None (brk h :: A l) (n :: W l) None ->
            (forall l', l' <> l -> linked m2 None (A l') (W l') None) ->
            (forall p, m2 p <> None -> p = brk h \/ mem h p <> None) ->
            stored (set_top (mkHeap m2 (S (brk h)) (top h)) l (Some (brk h))) (lists_add A l (brk h)) (lists_add W l n)).
  { intros m2 F1 F2 F3. unfold lists_add. split; [|split; [|split]].
    - intro l'. cbn [set_top top mem]. destruct (lit_eqb_spec l' l) as [->|N].
      + rewrite !updl_same. split; auto.
      + rewrite !updl_other by auto. destruct (S1 l') as (T' & _). split; auto.
    - intro l'. destruct (lit_eqb_spec l' l) as [->|N]; [rewrite updl_same; constructor; auto|rewrite updl_other; auto].
    - intros l1 l2 p I1 I2. destruct (lit_eqb_spec l1 l) as [->|N1], (lit_eqb_spec l2 l) as [->|N2]; auto;
        rewrite ?updl_same, ?updl_other in * by auto.
      + destruct I1 as [<-|I1]; [destruct (NF _ I2)|eauto].
      + destruct I2 as [<-|I2]; [destruct (NF _ I1)|eauto].
      + eauto.
    - intros p I. cbn [set_top mem brk] in *. destruct (F3 p I) as [->|I'].
      + split; [lia|]. exists l. rewrite updl_same. left; auto.
      + destruct (S4 p I') as (B & l' & I2). split; [lia|]. exists l'. destruct (lit_eqb_spec l' l) as [->|N];
          [rewrite updl_same; right; auto|rewrite updl_other; auto]. }
  destruct (A l) as [|q ps] eqn:EA.
  - cbn [first_or] in T. rewrite T. cbn [bind]. eexists. split; [reflexivity|]. apply FIN.
    + cbn [linked first_or]. destruct (W l); [|destruct LK]. split; [unfold m1; rewrite updn_same, T; reflexivity|exact I].
    + intros l' N. apply LO; [apply NF|apply S1].
    + intros p Hp. destruct (Nat.eq_dec p (brk h)) as [->|N]; auto. right. unfold m1 in Hp. rewrite updn_other in Hp; auto.
  - cbn [first_or] in T. rewrite T. destruct (W l) as [|k ns] eqn:EW; [destruct LK|].
    assert (Q : q <> brk h). { intros ->. apply (NF l). rewrite EA. left; auto. }
    assert (NQ : ~ In q ps). { specialize (S2 l). rewrite EA in S2. inversion S2; auto. }
    assert (NB : ~ In (brk h) (q :: ps)). { rewrite <- EA. apply NF. }
    assert (Mq : exists r, m1 q = Some r). { cbn [linked] in LK. destruct LK as (K & _). unfold m1. rewrite updn_other by auto. eauto. }
    destruct Mq as (r & Mq). unfold load, store, load. cbn [mem bind]. rewrite Mq. cbn [bind brk top].
    eexists. split; [reflexivity|]. apply FIN.
    + pose proof (linked_prev m1 None (Some (brk h)) None ps ns q k r (LO _ _ _ _ NB LK) NQ Mq) as X.
      cbn [linked first_or]. cbn [linked first_or] in X. split; [|exact X].
      rewrite updn_other by auto. unfold m1. rewrite updn_same, T. reflexivity.
    + intros l' N. eapply linked_frame; [|apply LO; [apply NF|apply S1]]. intros p Hp. apply updn_other. intros ->.
      apply N. eapply S3; [exact Hp|rewrite EA; left; auto].
    + intros p Hp. destruct (Nat.eq_dec p (brk h)) as [->|N]; auto. right. destruct (Nat.eq_dec p q) as [->|N2].
      * cbn [linked] in LK. destruct LK as (K & _). congruence.
      * rewrite updn_other in Hp by auto. unfold m1 in Hp. rewrite updn_other in Hp; auto.
Qed.

(** ** removeRecord *)

Lemma remove_stored s h A W l ps1 p ps2 ns1 n ns2 : stored h A W -> lit_ok (tr s) l = true ->
  A l = ps1 ++ p :: ps2 -> W l = ns1 ++ n :: ns2 -> length ps1 = length ns1 ->
  exists h', h_remove (s, h) p l = Ok (s, h') /\ brk h' = brk h /\ stored h' (updl A l (ps1 ++ ps2)) (updl W l (ns1 ++ ns2)).
Proof.
  intros ST C EA EW L. pose proof ST as (S1 & S2 & S3 & S4). unfold h_remove, chk. rewrite C. cbn [bind].
  destruct (S1 l) as (T & LK). rewrite EA, EW in LK. apply linked_app in LK; auto. destruct LK as (K1 & K2).
  cbn [linked] in K2. destruct K2 as (Mp & K2). cbn [first_or] in K1.
  pose proof (S2 l) as ND. rewrite EA in ND. pose proof (NoDup_remove_1 _ _ _ ND) as ND'. pose proof (NoDup_remove_2 _ _ _ ND) as NP.
  assert (NP1 : ~ In p ps1) by (intro; apply NP, in_or_app; auto).
  assert (NP2 : ~ In p ps2) by (intro; apply NP, in_or_app; auto).
  assert (DISJ : forall q, In q ps1 -> ~ In q ps2).
  { clear -ND'. induction ps1 as [|a ps1 IH]; intros q HI J; [destruct HI|]. cbn [app] in ND'. inversion ND' as [|x xs X1 X2]; subst.
    destruct HI as [<-|HI]; [apply X1, in_or_app; auto|eapply IH; eauto]. }
  (* what remains to be shown of the memory *)
  assert (FIN : forall m2 t2, linked m2 None ps1 ns1 (first_or ps2 None) -> linked m2 (last_or None ps1) ps2 ns2 None ->
            (forall l', l' <> l -> linked m2 None (A l') (W l') None) ->
            (forall q, m2 q <> None -> mem h q <> None) ->
            t2 l = first_or (ps1 ++ ps2) None -> (forall l', l' <> l -> t2 l' = top h l') ->
            stored (mkHeap (updn m2 p None) (brk h) t2) (updl A l (ps1 ++ ps2)) (updl W l (ns1 ++ ns2))).
  { intros m2 t2 F1 F2 F3 F4 F5 F6. split; [|split; [|split]].
    - intro l'. cbn [top mem]. destruct (lit_eqb_spec l' l) as [->|N].
      + rewrite !updl_same. split; auto. apply linked_app; auto. split.
        * eapply linked_frame; [|exact F1]. intros q Hq. apply updn_other. intros ->. auto.
        * eapply linked_frame; [|exact F2]. intros q Hq. apply updn_other. intros ->. auto.
      + rewrite !updl_other by auto. rewrite F6 by auto. split; [apply S1|]. eapply linked_frame; [|apply F3; auto].
        intros q Hq. apply updn_other. intros ->. apply N. eapply S3; [exact Hq|rewrite EA; apply in_or_app; right; left; auto].
    - intro l'. destruct (lit_eqb_spec l' l) as [->|N]; [rewrite updl_same; auto|rewrite updl_other; auto].
    - intros l1 l2 q I1 I2.
      assert (X : forall l', In q (updl A l (ps1 ++ ps2) l') -> In q (A l')).
      { intros l' I. destruct (lit_eqb_spec l' l) as [->|N]; [|rewrite updl_other in I; auto]. rewrite updl_same in I. rewrite EA.
        apply in_app_or in I. apply in_or_app. destruct I; auto. right; right; auto. }
      eapply S3; apply X; eauto.
    - intros q Hq. cbn [mem brk] in *. destruct (Nat.eq_dec q p) as [->|N]; [rewrite updn_same in Hq; congruence|].
      rewrite updn_other in Hq by auto. apply F4 in Hq. destruct (S4 q Hq) as (B & l' & I). split; auto. exists l'.
      destruct (lit_eqb_spec l' l) as [->|N2]; [|rewrite updl_other; auto]. rewrite updl_same. rewrite EA in I.
      apply in_app_or in I. apply in_or_app. destruct I as [I|[I|I]]; auto. congruence. }
  unfold load at 1. rewrite Mp. cbn [bind r_prev r_next].
  (* the first half: the record before p *)
  assert (H1 : exists m1 t1,
    (match last_or None ps1 with
     | Some q => let* a := load h q in store h q (with_next a (first_or ps2 None))
     | None => Ok (set_top h l (first_or ps2 None))
     end) = Ok (mkHeap m1 (brk h) t1) /\
    linked m1 None ps1 ns1 (first_or ps2 None) /\ linked m1 (Some p) ps2 ns2 None /\
    (forall l', l' <> l -> linked m1 None (A l') (W l') None) /\ (forall q, m1 q <> None -> mem h q <> None) /\
    m1 p = mem h p /\ t1 l = first_or (ps1 ++ ps2) None /\ (forall l', l' <> l -> t1 l' = top h l')).
  { destruct ps1 as [|q ps1] using rev_ind.
    - destruct ns1; [|discriminate]. cbn [last_or fold_left]. exists (mem h), (updl (top h) l (first_or ps2 None)).
      split; [reflexivity|]. split; [exact I|]. split; [exact K2|]. split; [intros; apply S1|]. split; auto. split; auto.
      split; [rewrite updl_same; reflexivity|intros; apply updl_other; auto].
    - clear IHps1. rewrite last_or_app. destruct ns1 as [|k ns1] using rev_ind; [rewrite app_length in L; simpl in L; lia|]. clear IHns1.
      rewrite !app_length in L. simpl in L. assert (L' : length ps1 = length ns1) by lia.
      assert (Iq : In q (ps1 ++ [q])) by (apply in_or_app; right; left; auto).
      assert (Nq : q <> p) by (intros ->; auto).
      assert (NDq : NoDup (ps1 ++ [q])). { clear -ND'. rewrite <- (app_nil_r (ps1 ++ [q])). induction ps2 using rev_ind; [rewrite app_nil_r in *; auto|].
        apply IHps2. rewrite app_assoc in ND'. apply NoDup_remove_1 in ND'. rewrite app_nil_r in ND'. auto. }
      destruct (mem h q) as [r|] eqn:Mq; [|exfalso; exact (linked_alive _ _ _ _ _ _ K1 Iq Mq)].
      unfold store, load. rewrite Mq. cbn [bind]. eexists _, _. split; [reflexivity|].
      split; [eapply linked_next; eauto|]. split; [|split; [|split; [|split; [|split]]]].
      + eapply linked_frame; [|exact K2]. intros z Hz. apply updn_other. intros ->. eapply DISJ; eauto.
      + intros l' N. eapply linked_frame; [|apply S1]. intros z Hz. apply updn_other. intros ->. apply N.
        eapply S3; [exact Hz|rewrite EA; apply in_or_app; left; auto].
      + intros z Hz. destruct (Nat.eq_dec z q) as [->|Nz]; [congruence|rewrite updn_other in Hz; auto].
      + apply updn_other. auto.
      + rewrite T, EA. destruct ps1; reflexivity.
      + auto. }
  destruct H1 as (m1 & t1 & E1 & F1 & F2 & F3 & F4 & F5 & F6 & F7). rewrite E1. cbn [bind]. clear E1.
  unfold load at 1. cbn [mem]. rewrite F5, Mp. cbn [bind r_next r_prev].
  destruct ps2 as [|q ps2].
  - cbn [first_or bind]. unfold free, load. cbn [mem]. rewrite F5, Mp. cbn [bind brk top]. eexists. split; [reflexivity|]. split; [reflexivity|].
    destruct ns2; [|destruct F2]. apply FIN; auto.
  - cbn [first_or]. destruct ns2 as [|k ns2]; [destruct F2|].
    assert (Nq : q <> p). { intros ->. apply NP2. left; auto. }
    assert (NQ : ~ In q ps2). { clear -ND'. apply NoDup_remove_2 in ND'. intro; apply ND', in_or_app; auto. }
    destruct (m1 q) as [r|] eqn:Mq; [|exfalso; exact (linked_alive _ _ _ _ _ _ F2 (or_introl eq_refl) Mq)].
    unfold store, load. cbn [mem]. rewrite Mq. cbn [bind mem brk top]. unfold free, load. cbn [mem].
    rewrite updn_other, F5, Mp by auto. cbn [bind brk top]. eexists. split; [reflexivity|]. split; [reflexivity|]. apply FIN; auto.
    + eapply linked_frame; [|exact F1]. intros z Hz. apply updn_other. intros ->. eapply DISJ; eauto. left; auto.
    + eapply linked_prev; eauto.
    + intros l' N. eapply linked_frame; [|apply F3; auto]. intros z Hz. apply updn_other. intros ->. apply N.
      eapply S3; [exact Hz|rewrite EA; apply in_or_app; right; right; left; auto].
    + intros z Hz. destruct (Nat.eq_dec z q) as [->|Nz]; [apply F4; congruence|rewrite updn_other in Hz; auto].
Qed.
