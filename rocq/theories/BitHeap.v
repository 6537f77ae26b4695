(** * Facts about the linked lists of the second solver *)

From Verif Require Import Spec Outcome State ModelHeap HeapSpec Base Heap ModelBit ModelBitMem BitMemSpec.

Lemma bstored_alive h A W l p : bstored h A W -> In p (A l) -> exists r, bmem h p = Some r.
Proof.
  intros (S & _) I. destruct (S l) as (_ & H). pose proof (linked_alive _ _ _ _ _ _ H I). destruct (bmem h p); [eauto|congruence].
Qed.
Lemma bstored_below h A W l p : bstored h A W -> In p (A l) -> (p < bbrk h)%nat.
Proof. intros S I. destruct (bstored_alive h A W l p S I) as (r & E). destruct S as (_ & _ & _ & S). apply S. congruence. Qed.

(** ** addRecord *)

Definition blists_add (W : Z -> list nat) (l : Z) (n : nat) : Z -> list nat := upd1 W l (n :: W l).

Lemma badd_bstored h A W l n : bstored h A W ->
  exists h', r_add h l n = Ok h' /\ bstored h' (blists_add A l (bbrk h)) (blists_add W l n).
Proof.
  intros ST. pose proof ST as (S1 & S2 & S3 & S4). unfold r_add. cbn [bind balloc btop].
  destruct (S1 l) as (T & LK).
  assert (NF : forall l', ~ In (bbrk h) (A l')). { intros l' I. apply (bstored_below h A W l') in I; auto. lia. }
  set (m1 := updn (bmem h) (bbrk h) (Some (mkRec n (btop h l) None))).
  assert (LO : forall ps ns prv nxt, ~ In (bbrk h) ps -> linked (bmem h) prv ps ns nxt -> linked m1 prv ps ns nxt).
  { intros ps ns prv nxt I H. eapply linked_frame; [|exact H]. intros p Hp. unfold m1. apply updn_other. intros ->. auto. }
  assert (FIN : forall m2, linked m2 None (bbrk h :: A l) (n :: W l) None ->
            (forall l', l' <> l -> linked m2 None (A l') (W l') None) ->
            (forall p, m2 p <> None -> p = bbrk h \/ bmem h p <> None) ->
            bstored (set_btop (mkBheap m2 (S (bbrk h)) (btop h)) l (Some (bbrk h))) (blists_add A l (bbrk h)) (blists_add W l n)).
  { intros m2 F1 F2 F3. unfold blists_add. split; [|split; [|split]].
    - intro l'. cbn [set_btop btop bmem]. destruct (Z.eqb_spec l' l) as [->|N].
      + rewrite !upd1_same. split; auto.
      + rewrite !upd1_other by auto. destruct (S1 l') as (T' & _). split; auto.
    - intro l'. destruct (Z.eqb_spec l' l) as [->|N]; [rewrite upd1_same; constructor; auto|rewrite upd1_other; auto].
    - intros l1 l2 p I1 I2. destruct (Z.eqb_spec l1 l) as [->|N1], (Z.eqb_spec l2 l) as [->|N2]; auto;
        rewrite ?upd1_same, ?upd1_other in * by auto.
      + destruct I1 as [<-|I1]; [destruct (NF _ I2)|eauto].
      + destruct I2 as [<-|I2]; [destruct (NF _ I1)|eauto].
      + eauto.
    - intros p I. cbn [set_btop bmem bbrk] in *. destruct (F3 p I) as [->|I'].
      + split; [lia|]. exists l. rewrite upd1_same. left; auto.
      + destruct (S4 p I') as (B & l' & I2). split; [lia|]. exists l'. destruct (Z.eqb_spec l' l) as [->|N];
          [rewrite upd1_same; right; auto|rewrite upd1_other; auto]. }
  destruct (A l) as [|q ps] eqn:EA.
  - cbn [first_or] in T. rewrite T. cbn [bind]. eexists. split; [reflexivity|]. apply FIN.
    + cbn [linked first_or]. destruct (W l); [|destruct LK]. split; [unfold m1; rewrite updn_same, T; reflexivity|exact I].
    + intros l' N. apply LO; [apply NF|apply S1].
    + intros p Hp. destruct (Nat.eq_dec p (bbrk h)) as [->|N]; auto. right. unfold m1 in Hp. rewrite updn_other in Hp; auto.
  - cbn [first_or] in T. rewrite T. destruct (W l) as [|k ns] eqn:EW; [destruct LK|].
    assert (Q : q <> bbrk h). { intros ->. apply (NF l). rewrite EA. left; auto. }
    assert (NQ : ~ In q ps). { specialize (S2 l). rewrite EA in S2. inversion S2; auto. }
    assert (NB : ~ In (bbrk h) (q :: ps)). { rewrite <- EA. apply NF. }
    assert (Mq : exists r, m1 q = Some r). { cbn [linked] in LK. destruct LK as (K & _). unfold m1. rewrite updn_other by auto. eauto. }
    destruct Mq as (r & Mq). unfold bload, bstore, bload. cbn [bmem bind]. rewrite Mq. cbn [bind bbrk btop].
    eexists. split; [reflexivity|]. apply FIN.
    + pose proof (linked_prev m1 None (Some (bbrk h)) None ps ns q k r (LO _ _ _ _ NB LK) NQ Mq) as X.
      cbn [linked first_or]. cbn [linked first_or] in X. split; [|exact X].
      rewrite updn_other by auto. unfold m1. rewrite updn_same, T. reflexivity.
    + intros l' N. eapply linked_frame; [|apply LO; [apply NF|apply S1]]. intros p Hp. apply updn_other. intros ->.
      apply N. eapply S3; [exact Hp|rewrite EA; left; auto].
    + intros p Hp. destruct (Nat.eq_dec p (bbrk h)) as [->|N]; auto. right. destruct (Nat.eq_dec p q) as [->|N2].
      * cbn [linked] in LK. destruct LK as (K & _). congruence.
      * rewrite updn_other in Hp by auto. unfold m1 in Hp. rewrite updn_other in Hp; auto.
Qed.

(** ** removeRecord *)

Lemma bremove_bstored h A W l ps1 p ps2 ns1 n ns2 : bstored h A W ->
  A l = ps1 ++ p :: ps2 -> W l = ns1 ++ n :: ns2 -> length ps1 = length ns1 ->
  exists h', r_remove h p l = Ok h' /\ bbrk h' = bbrk h /\ bstored h' (upd1 A l (ps1 ++ ps2)) (upd1 W l (ns1 ++ ns2)).
Proof.
  intros ST EA EW L. pose proof ST as (S1 & S2 & S3 & S4). unfold r_remove.
  destruct (S1 l) as (T & LK). rewrite EA, EW in LK. apply linked_app in LK; auto. destruct LK as (K1 & K2).
  cbn [linked] in K2. destruct K2 as (Mp & K2). cbn [first_or] in K1.
  pose proof (S2 l) as ND. rewrite EA in ND. pose proof (NoDup_remove_1 _ _ _ ND) as ND'. pose proof (NoDup_remove_2 _ _ _ ND) as NP.
  assert (NP1 : ~ In p ps1) by (intro; apply NP, in_or_app; auto).
  assert (NP2 : ~ In p ps2) by (intro; apply NP, in_or_app; auto).
  assert (DISJ : forall q, In q ps1 -> ~ In q ps2).
  { clear -ND'. induction ps1 as [|a ps1 IH]; intros q HI J; [destruct HI|]. cbn [app] in ND'. inversion ND' as [|x xs X1 X2]; subst.
    destruct HI as [<-|HI]; [apply X1, in_or_app; auto|eapply IH; eauto]. }
  (* what remains to be shown of the bmemory *)
  assert (FIN : forall m2 t2, linked m2 None ps1 ns1 (first_or ps2 None) -> linked m2 (last_or None ps1) ps2 ns2 None ->
            (forall l', l' <> l -> linked m2 None (A l') (W l') None) ->
            (forall q, m2 q <> None -> bmem h q <> None) ->
            t2 l = first_or (ps1 ++ ps2) None -> (forall l', l' <> l -> t2 l' = btop h l') ->
            bstored (mkBheap (updn m2 p None) (bbrk h) t2) (upd1 A l (ps1 ++ ps2)) (upd1 W l (ns1 ++ ns2))).
  { intros m2 t2 F1 F2 F3 F4 F5 F6. split; [|split; [|split]].
    - intro l'. cbn [btop bmem]. destruct (Z.eqb_spec l' l) as [->|N].
      + rewrite !upd1_same. split; auto. apply linked_app; auto. split.
        * eapply linked_frame; [|exact F1]. intros q Hq. apply updn_other. intros ->. auto.
        * eapply linked_frame; [|exact F2]. intros q Hq. apply updn_other. intros ->. auto.
      + rewrite !upd1_other by auto. rewrite F6 by auto. split; [apply S1|]. eapply linked_frame; [|apply F3; auto].
        intros q Hq. apply updn_other. intros ->. apply N. eapply S3; [exact Hq|rewrite EA; apply in_or_app; right; left; auto].
    - intro l'. destruct (Z.eqb_spec l' l) as [->|N]; [rewrite upd1_same; auto|rewrite upd1_other; auto].
    - intros l1 l2 q I1 I2.
      assert (X : forall l', In q (upd1 A l (ps1 ++ ps2) l') -> In q (A l')).
      { intros l' I. destruct (Z.eqb_spec l' l) as [->|N]; [|rewrite upd1_other in I; auto]. rewrite upd1_same in I. rewrite EA.
        apply in_app_or in I. apply in_or_app. destruct I; auto. right; right; auto. }
      eapply S3; apply X; eauto.
    - intros q Hq. cbn [bmem bbrk] in *. destruct (Nat.eq_dec q p) as [->|N]; [rewrite updn_same in Hq; congruence|].
      rewrite updn_other in Hq by auto. apply F4 in Hq. destruct (S4 q Hq) as (B & l' & I). split; auto. exists l'.
      destruct (Z.eqb_spec l' l) as [->|N2]; [|rewrite upd1_other; auto]. rewrite upd1_same. rewrite EA in I.
      apply in_app_or in I. apply in_or_app. destruct I as [I|[I|I]]; auto. congruence. }
  unfold bload at 1. rewrite Mp. cbn [bind r_prev r_next].
  (* the first half: the record before p *)
  assert (H1 : exists m1 t1,
    (match last_or None ps1 with
     | Some q => let* a := bload h q in bstore h q (with_next a (first_or ps2 None))
     | None => Ok (set_btop h l (first_or ps2 None))
     end) = Ok (mkBheap m1 (bbrk h) t1) /\
    linked m1 None ps1 ns1 (first_or ps2 None) /\ linked m1 (Some p) ps2 ns2 None /\
    (forall l', l' <> l -> linked m1 None (A l') (W l') None) /\ (forall q, m1 q <> None -> bmem h q <> None) /\
    m1 p = bmem h p /\ t1 l = first_or (ps1 ++ ps2) None /\ (forall l', l' <> l -> t1 l' = btop h l')).
  { destruct ps1 as [|q ps1] using rev_ind.
    - destruct ns1; [|discriminate]. cbn [last_or fold_left]. exists (bmem h), (upd1 (btop h) l (first_or ps2 None)).
      split; [reflexivity|]. split; [exact I|]. split; [exact K2|]. split; [intros; apply S1|]. split; auto. split; auto.
      split; [rewrite upd1_same; reflexivity|intros; apply upd1_other; auto].
    - clear IHps1. rewrite last_or_app. destruct ns1 as [|k ns1] using rev_ind; [rewrite app_length in L; simpl in L; lia|]. clear IHns1.
      rewrite !app_length in L. simpl in L. assert (L' : length ps1 = length ns1) by lia.
      assert (Iq : In q (ps1 ++ [q])) by (apply in_or_app; right; left; auto).
      assert (Nq : q <> p) by (intros ->; auto).
      assert (NDq : NoDup (ps1 ++ [q])). { clear -ND'. rewrite <- (app_nil_r (ps1 ++ [q])). induction ps2 using rev_ind; [rewrite app_nil_r in *; auto|].
        apply IHps2. rewrite app_assoc in ND'. apply NoDup_remove_1 in ND'. rewrite app_nil_r in ND'. auto. }
      destruct (bmem h q) as [r|] eqn:Mq; [|exfalso; exact (linked_alive _ _ _ _ _ _ K1 Iq Mq)].
      unfold bstore, bload. rewrite Mq. cbn [bind]. eexists _, _. split; [reflexivity|].
      split; [eapply linked_next; eauto|]. split; [|split; [|split; [|split; [|split]]]].
      + eapply linked_frame; [|exact K2]. intros z Hz. apply updn_other. intros ->. eapply DISJ; eauto.
      + intros l' N. eapply linked_frame; [|apply S1]. intros z Hz. apply updn_other. intros ->. apply N.
        eapply S3; [exact Hz|rewrite EA; apply in_or_app; left; auto].
      + intros z Hz. destruct (Nat.eq_dec z q) as [->|Nz]; [congruence|rewrite updn_other in Hz; auto].
      + apply updn_other. auto.
      + rewrite T, EA. destruct ps1; reflexivity.
      + auto. }
  destruct H1 as (m1 & t1 & E1 & F1 & F2 & F3 & F4 & F5 & F6 & F7). rewrite E1. cbn [bind]. clear E1.
  unfold bload at 1. cbn [bmem]. rewrite F5, Mp. cbn [bind r_next r_prev].
  assert (TOP : forall h' : bheap, btop h' = t1 -> (match btop h' l with
            | Some q => if Nat.eqb p q then let* r := bload h' p in Ok (set_btop h' l (r_next r)) else Ok h'
            | None => Ok h'
            end) = Ok h').
  { intros h' ->. rewrite F6. destruct (first_or (ps1 ++ ps2) None) as [q|] eqn:FO; auto. destruct (Nat.eqb_spec p q) as [<-|]; auto.
    exfalso. apply NP. destruct (ps1 ++ ps2); [discriminate|]. injection FO as ->. left; auto. }
  destruct ps2 as [|q ps2].
  - cbn [first_or bind]. rewrite TOP by reflexivity. cbn [bind]. unfold bfree, bload. cbn [bmem]. rewrite F5, Mp. cbn [bind bbrk btop]. eexists. split; [reflexivity|]. split; [reflexivity|].
    destruct ns2; [|destruct F2]. apply FIN; auto.
  - cbn [first_or]. destruct ns2 as [|k ns2]; [destruct F2|].
    assert (Nq : q <> p). { intros ->. apply NP2. left; auto. }
    assert (NQ : ~ In q ps2). { clear -ND'. apply NoDup_remove_2 in ND'. intro; apply ND', in_or_app; auto. }
    destruct (m1 q) as [r|] eqn:Mq; [|exfalso; exact (linked_alive _ _ _ _ _ _ F2 (or_introl eq_refl) Mq)].
    unfold bstore at 1. unfold bload at 1 2. cbn [bmem]. rewrite Mq. cbn [bind]. rewrite TOP by reflexivity. cbn [bind bmem bbrk btop]. unfold bfree, bload. cbn [bmem].
    rewrite updn_other, F5, Mp by auto. cbn [bind bbrk btop]. eexists. split; [reflexivity|]. split; [reflexivity|]. apply FIN; auto.
    + eapply linked_frame; [|exact F1]. intros z Hz. apply updn_other. intros ->. eapply DISJ; eauto. left; auto.
    + eapply linked_prev; eauto.
    + intros l' N. eapply linked_frame; [|apply F3; auto]. intros z Hz. apply updn_other. intros ->. apply N.
      eapply S3; [exact Hz|rewrite EA; apply in_or_app; right; right; left; auto].
    + intros z Hz. destruct (Nat.eq_dec z q) as [->|Nz]; [apply F4; congruence|rewrite updn_other in Hz; auto].
Qed.
