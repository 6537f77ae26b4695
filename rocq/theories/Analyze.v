(** * Conflict analysis *)

From Verif Require Import Spec Outcome State ModelCounter ModelHeur ModelLearn Base Trail Reduce.

(** ** Extended resolution *)

Lemma falsifies_iff x l : falsifies x l = true <->
  lvar x = lvar l /\ (lval x = lval l /\ leq x <> leq l \/
                      lval x <> lval l /\ leq x = true /\ leq l = true).
Proof.
  unfold falsifies. destruct (Z.eqb_spec (lvar x) (lvar l)) as [E|E]; simpl; [|intuition congruence].
  destruct (Z.eqb_spec (lval x) (lval l)) as [E'|E']; simpl.
  - destruct (Bool.eqb (leq x) (leq l)) eqn:B.
    + apply Bool.eqb_prop in B. intuition congruence.
    + apply Bool.eqb_false_iff in B. intuition congruence.
  - destruct (leq x), (leq l); simpl; intuition congruence.
Qed.

(** Two literals that falsify each other do not hold together. *)
Lemma falsifies_sound a x l : falsifies x l = true -> lit_holds a x -> lit_holds a l -> False.
Proof.
  intro H. apply falsifies_iff in H. unfold lit_holds. destruct H as (E & [(E1 & E2)|(E1 & E2 & E3)]).
  - rewrite E, E1. destruct (leq x), (leq l); congruence.
  - rewrite E, E2, E3. congruence.
Qed.

Lemma in_resolve x c l r : In x (resolve c l r) <->
  (In x c /\ falsifies x (neg l) = false) \/ (In x r /\ falsifies x l = false).
Proof.
  unfold resolve.
  assert (G : forall rs acc, In x (fold_left (fun acc x => if negb (falsifies x l) && negb (has_atom acc x)
                          then acc ++ [x] else acc) rs acc) <-> In x acc \/ (In x rs /\ falsifies x l = false)).
  { induction rs as [|y rs IH]; intro acc; simpl; [tauto|]. rewrite IH.
    destruct (falsifies y l) eqn:F; simpl.
    - intuition. subst; congruence.
    - destruct (has_atom acc y) eqn:Hy; simpl.
      + apply has_atom_In in Hy. intuition. subst; auto.
      + rewrite in_app_iff. simpl. intuition; subst; auto. }
  rewrite G, filter_In, negb_true_iff. tauto.
Qed.

Lemma nodup_snoc {A} (l : list A) x : NoDup l -> ~ In x l -> NoDup (l ++ [x]).
Proof.
  intros H N. apply NoDup_rev in H. rewrite <- (rev_involutive (l ++ [x])). apply NoDup_rev.
  rewrite rev_app_distr. simpl. constructor; auto. rewrite <- in_rev. auto.
Qed.

Lemma nodup_resolve c l r : NoDup c -> NoDup (resolve c l r).
Proof.
  intro H. unfold resolve.
  assert (G : forall rs acc, NoDup acc -> NoDup (fold_left (fun acc x => if negb (falsifies x l) && negb (has_atom acc x)
                          then acc ++ [x] else acc) rs acc)).
  { induction rs as [|y rs IH]; intros acc Ha; simpl; auto. apply IH.
    destruct (negb (falsifies y l)); simpl; auto. destruct (has_atom acc y) eqn:Hy; simpl; auto.
    apply nodup_snoc; auto. apply has_atom_nIn; auto. }
  apply G. apply NoDup_filter; auto.
Qed.

Lemma resolve_sound a c l r :
  clause_holds a c -> clause_holds a r -> clause_holds a (resolve c l r).
Proof.
  intros (x & Hx & Tx) (y & Hy & Ty). destruct (lit_holds_dec a l) as [Tl|Fl].
  - exists y. split; auto. apply in_resolve. right. split; auto.
    destruct (falsifies y l) eqn:F; auto. exfalso. eapply falsifies_sound; eauto.
  - exists x. split; auto. apply in_resolve. left. split; auto.
    destruct (falsifies x (neg l)) eqn:F; auto. exfalso.
    apply (falsifies_sound a x (neg l)); auto. apply lit_holds_neg; auto.
Qed.

Lemma compatible x l : falsifies x l = false -> exists a, lit_holds a x /\ lit_holds a l.
Proof.
  intro F. assert (N : ~ (lvar x = lvar l /\ (lval x = lval l /\ leq x <> leq l \/
    lval x <> lval l /\ leq x = true /\ leq l = true))) by (rewrite <- falsifies_iff; congruence).
  unfold lit_holds.
  destruct (Z.eq_dec (lvar x) (lvar l)) as [E|E].
  - destruct (leq x) eqn:P, (leq l) eqn:Q.
    + exists (fun _ => lval x). split; [reflexivity|]. destruct (Z.eq_dec (lval x) (lval l)) as [K|K]; [exact K|]. exfalso. apply N. auto 6.
    + exists (fun _ => lval x). split; auto. intro K. apply N. split; [exact E|]. left. split; congruence.
    + exists (fun _ => lval l). split; auto. intro K. apply N. split; [exact E|]. left. split; congruence.
    + exists (fun _ => Z.abs (lval x) + Z.abs (lval l) + 1). split; lia.
  - exists (fun v => if v =? lvar x then (if leq x then lval x else lval x + 1)
                     else (if leq l then lval l else lval l + 1)).
    rewrite Z.eqb_refl, (proj2 (Z.eqb_neq (lvar l) (lvar x))) by congruence.
    destruct (leq x), (leq l); split; lia.
Qed.

Lemma resolve_exact C l R x : In x (resolve C l R) <->
  In x C /\ (exists a, lit_holds a x /\ ~ lit_holds a l) \/ In x R /\ (exists a, lit_holds a x /\ lit_holds a l).
Proof.
  rewrite in_resolve. split.
  - intros [(H & F)|(H & F)]; apply compatible in F; destruct F as (a & A1 & A2); [left|right]; split; eauto.
    exists a. split; auto. apply lit_holds_neg; auto.
  - intros [(H & a & A1 & A2)|(H & a & A1 & A2)]; [left|right]; split; auto.
    + destruct (falsifies x (neg l)) eqn:F; auto. exfalso. apply (falsifies_sound a x (neg l)); auto. apply lit_holds_neg; auto.
    + destruct (falsifies x l) eqn:F; auto. exfalso. apply (falsifies_sound a x l); auto.
Qed.

(** ** One step *)

Lemma countb_filter {A} (f : A -> bool) l : countb f l = length (filter f l).
Proof. reflexivity. Qed.

Lemma countb_incl_lt {A} (f : A -> bool) l l' y :
  NoDup l' -> (forall x, In x l' -> f x = true -> In x l) ->
  In y l -> f y = true -> ~ In y l' -> (countb f l' < countb f l)%nat.
Proof.
  intros ND I Hy Fy Ny. rewrite !countb_filter.
  apply (NoDup_incl_length (l := y :: filter f l')).
  - constructor; [|apply NoDup_filter; auto]. intro H. apply filter_In in H. tauto.
  - intros x [<-|Hx]; apply filter_In; auto. apply filter_In in Hx. destruct Hx; auto.
Qed.

Section Step.
Variables (t : trail) (cls : list clause) (lev : Z) (ex : Z -> Prop).
Hypothesis HB : TB t lev ex.
Hypothesis HD : TD t.
Hypothesis HR : TR t cls.
Hypothesis HW : cls_ok t cls.
Hypothesis HL : 1 <= lev.

(** A clause under analysis. *)
Record AN (C : clause) : Prop := mkAN {
  an_range : forall x, In x C -> lrange t x;
  an_false : forall x, In x C -> lit_false t x = true;
  an_nodup : NoDup C;
  an_lev : exists x, In x C /\ llev t x = lev
}.

(** The stack entry behind a falsified literal. *)
Lemma false_entry x : lrange t x -> lit_false t x = true ->
  exists i f, nth_error (DST t) i = Some f /\ lidx t x = Z.of_nat i /\ lvar f = lvar x /\
    llev t f = llev t x /\ CID t (lvar f) (lval f) = CID t (lvar x) (lval x) /\ lit_true t f = true /\
    (f = neg x \/ leq x = true /\ leq f = true /\ lval f <> lval x).
Proof.
  intros R F. destruct (td_atom _ HD (lvar x) (lval x) R (lit_false_as _ _ F))
    as (i & f & F1 & F2 & F3 & F4 & F5 & F6).
  destruct (td_dst _ HD i f F1) as (_ & T & _).
  exists i, f. rewrite F3.
  split; [exact F1|]. split; [exact F2|]. split; [reflexivity|]. split; [exact F4|].
  split; [exact F5|]. split; [exact T|].
  apply lit_false_asg in F. destruct F6 as [->|(F6 & F7 & F8)].
  - left. unfold neg. f_equal. rewrite F. destruct (leq x); auto.
  - right. rewrite F in F6. destruct (leq x); auto. discriminate.
Qed.

(** Literals with the same index come from the same stack entry. *)
Lemma same_entry x y f i : lrange t y -> lit_false t y = true ->
  nth_error (DST t) i = Some f -> lidx t x = Z.of_nat i -> lidx t y = lidx t x ->
  lvar f = lvar y /\ llev t f = llev t y /\
  (f = neg y \/ leq y = true /\ leq f = true /\ lval f <> lval y).
Proof.
  intros R F Hf Ix E. destruct (false_entry y R F) as (j & g & G1 & G2 & G3 & G4 & _ & _ & G7).
  assert (j = i) by lia. subst j. rewrite Hf in G1. injection G1 as <-. auto.
Qed.

Lemma idx_level x y : lrange t x -> lit_false t x = true -> lrange t y -> lit_false t y = true ->
  lidx t x <= lidx t y -> llev t x <= llev t y.
Proof.
  intros Rx Fx Ry Fy I.
  destruct (false_entry x Rx Fx) as (i & f & F1 & F2 & _ & F4 & _).
  destruct (false_entry y Ry Fy) as (j & g & G1 & G2 & _ & G4 & _).
  rewrite <- F4, <- G4. apply (td_mono _ HD i j); auto. lia.
Qed.

Definition posat (k : Z) (x : lit) : bool := leq x && (lidx t x =? k).

(** [L] is the literal of [C] that was falsified last. *)
Definition latest (C : clause) (L : lit) : Prop :=
  In L C /\ forall x, In x C -> lidx t x <= lidx t L.

Lemma latest_lev C L : AN C -> latest C L -> llev t L = lev.
Proof.
  intros A (HLC & M). destruct (an_lev _ A) as (x & Hx & Lx).
  assert (llev t x <= llev t L).
  { apply idx_level; auto; try (apply (an_range _ A); auto); apply (an_false _ A); auto. }
  assert (0 <= llev t L <= lev); [|lia].
  apply HB; [apply (an_range _ A); auto|]. apply lit_false_as. apply (an_false _ A); auto.
Qed.

Definition smaller (C C' : clause) (L : lit) : Prop :=
  (forall x, In x C' -> lidx t x < lidx t L) \/
  ((forall x, In x C' -> lidx t x <= lidx t L) /\
   (countb (posat (lidx t L)) C' < countb (posat (lidx t L)) C)%nat).

(** The clause resolved with, as found by reason_clause. *)
Definition reason_is (L : lit) (R : clause) : Prop :=
  match CID t (lvar L) (lval L) with
  | RDec => exists f, nth_error (DST t) (Z.to_nat (lidx t L)) = Some f /\
              R = [mkLit (lvar f) (lval f) true; mkLit (lvar f) (lval f) false]
  | REnt => R = map (fun i => mkLit (lvar L) i true) (zrange 0 (DOM t (lvar L)))
  | RCls n => nth_error cls n = Some R
  | RUndef => False
  end.

Lemma lit_ext (x y : lit) : lvar x = lvar y -> lval x = lval y -> leq x = leq y -> x = y.
Proof. destruct x, y; simpl; congruence. Qed.

Lemma fals_neg_self x : falsifies x (neg x) = true.
Proof. apply falsifies_iff. split; auto. left. split; auto. simpl. destruct (leq x); discriminate. Qed.

Lemma resolve_step C L R x1 x2 :
  AN C -> latest C L -> In x1 C -> In x2 C -> x1 <> x2 -> llev t x1 = lev -> llev t x2 = lev ->
  reason_is L R ->
  AN (resolve C L R) /\ smaller C (resolve C L R) L /\ ~ In L (resolve C L R) \/
  AN (resolve C L R) /\ smaller C (resolve C L R) L /\ leq L = false.
Proof.
  intros A LT I1 I2 N12 V1 V2 HRe.
  assert (LL := latest_lev C L A LT). destruct LT as (HLC & MX).
  assert (RL := an_range _ A L HLC). assert (FL := an_false _ A L HLC).
  destruct (false_entry L RL FL) as (i & f & F1 & F2 & F3 & F4 & F5 & F6 & F7).
  pose proof (HR i f F1) as RO. unfold reason_ok in RO. unfold reason_is in HRe.
  rewrite F5 in RO.
  assert (SAME : forall x, In x C -> lidx t x = lidx t L ->
            lvar f = lvar x /\ (f = neg x \/ leq x = true /\ leq f = true /\ lval f <> lval x)).
  { intros x Hx E. destruct (same_entry L x f i) as (S1 & _ & S3); auto.
    - apply (an_range _ A); auto.
    - apply (an_false _ A); auto. }
  (* another literal of C at this level *)
  assert (OTHER : exists x, In x C /\ x <> L /\ llev t x = lev).
  { destruct (lit_eq_dec x1 L) as [->|]; [exists x2|exists x1]; auto. }
  destruct OTHER as (x0 & Hx0 & Nx0 & Lx0).
  assert (NFL : falsifies L (neg L) = true) by apply fals_neg_self.
  (* the resolvent consists of falsified literals as soon as the part of R does *)
  assert (MK : (forall r, In r R -> falsifies r L = false -> lrange t r /\ lit_false t r = true) ->
               (exists x, In x (resolve C L R) /\ llev t x = lev) -> AN (resolve C L R)).
  { intros P1 P2. split; auto.
    - intros x Hx. apply in_resolve in Hx. destruct Hx as [(Hx & _)|(Hx & Fx)].
      + apply (an_range _ A); auto.
      + apply P1; auto.
    - intros x Hx. apply in_resolve in Hx. destruct Hx as [(Hx & _)|(Hx & Fx)].
      + apply (an_false _ A); auto.
      + apply P1; auto.
    - apply nodup_resolve. apply (an_nodup _ A). }
  destruct (CID t (lvar L) (lval L)) as [| |n|] eqn:CL.
  - (* decision *)
    destruct HRe as (f' & Hf' & ->). rewrite F2, Nat2Z.id, F1 in Hf'. injection Hf' as <-.
    destruct RO as (_ & RO).
    assert (LAST : forall x, In x C -> llev t x = lev -> lidx t x = lidx t L).
    { intros x Hx Vx. destruct (false_entry x) as (j & g & G1 & G2 & _ & G4 & _).
      - apply (an_range _ A); auto.
      - apply (an_false _ A); auto.
      - specialize (MX x Hx). destruct (Nat.eq_dec j i) as [->|Nj]; [lia|].
        assert (llev t g < llev t f) by (apply (RO j); auto; lia). lia. }
    (* the decision is an equality: otherwise it falsifies one literal only *)
    assert (EQF : leq f = true).
    { destruct (SAME x1 I1 (LAST x1 I1 V1)) as (S1 & [S2|(_ & S2 & _)]); auto.
      destruct (SAME x2 I2 (LAST x2 I2 V2)) as (S1' & [S2'|(_ & S2' & _)]); auto.
      exfalso. apply N12. rewrite <- (neg_neg x1), <- (neg_neg x2), <- S2, <- S2'. auto. }
    assert (NF : mkLit (lvar f) (lval f) false = neg f).
    { unfold neg. rewrite EQF. reflexivity. }
    assert (PF : mkLit (lvar f) (lval f) true = f) by (rewrite <- EQF; apply lit_eta).
    rewrite PF, NF in *.
    assert (RF : lrange t (neg f) /\ lit_false t (neg f) = true).
    { destruct (td_dst _ HD i f F1) as (Rf & Tf & _). split; auto. rewrite lit_false_neg; auto. }
    assert (IF : lidx t (neg f) = lidx t L).
    { destruct (td_dst _ HD i f F1) as (_ & _ & If). rewrite F2. exact If. }
    assert (LFf : llev t (neg f) = lev) by (unfold llev; simpl; fold (llev t f); lia).
    (* R contributes neg f only *)
    assert (INR : forall x, In x (resolve C L [f; neg f]) <->
               (In x C /\ falsifies x (neg L) = false) \/ x = neg f).
    { intro x. rewrite in_resolve. simpl.
      assert (X1 : falsifies f L = true).
      { apply falsifies_iff. split; [auto|]. destruct F7 as [->|(Q1 & Q2 & Q3)].
        - left. split; auto. simpl. destruct (leq L); discriminate.
        - right. auto. }
      assert (X2 : falsifies (neg f) L = false).
      { destruct (falsifies (neg f) L) eqn:X; auto. apply falsifies_iff in X. simpl in X.
        destruct F7 as [->|(Q1 & Q2 & Q3)].
        - simpl in X. destruct (leq L); simpl in X; intuition congruence.
        - rewrite Q2 in X. simpl in X. intuition congruence. }
      intuition; subst; auto; try congruence. }
    assert (AR : AN (resolve C L [f; neg f])).
    { apply MK.
      - intros r [<-|[<-|[]]]; auto.
        intro X. exfalso. assert (X1 : falsifies f L = true); [|congruence].
        apply falsifies_iff. split; [auto|]. destruct F7 as [->|(Q1 & Q2 & Q3)].
        + left. split; auto. simpl. destruct (leq L); discriminate.
        + right. auto.
      - exists (neg f). split; auto. apply INR. auto. }
    destruct F7 as [EF|(Q1 & Q2 & Q3)].
    + (* L = (v != w): every equality of this variable goes *)
      assert (LEQ : leq L = false) by (rewrite EF in EQF; simpl in EQF; destruct (leq L); auto; discriminate).
      right. split; auto. split; auto.
      right. split.
      * intros x Hx. apply INR in Hx. destruct Hx as [(Hx & _)| ->]; auto. lia.
      * destruct (SAME x0 Hx0) as (S1 & S2); [apply LAST; auto|].
        destruct S2 as [S2|(S2 & S3 & S4)].
        { exfalso. apply Nx0. rewrite <- (neg_neg x0), <- S2, EF, neg_neg. auto. }
        apply countb_incl_lt with x0; auto.
        -- apply (an_nodup _ AR).
        -- intros x Hx Px. apply INR in Hx. destruct Hx as [(Hx & _)| ->]; auto.
           exfalso. unfold posat in Px. simpl in Px. rewrite EQF in Px. discriminate.
        -- unfold posat. rewrite S2, (LAST x0 Hx0 Lx0), Z.eqb_refl. auto.
        -- intro Hx. apply INR in Hx. destruct Hx as [(_ & Hx)| ->].
           ++ assert (falsifies x0 (neg L) = true); [|congruence]. apply falsifies_iff.
              rewrite <- EF. split; auto.
           ++ simpl in S2. rewrite EQF in S2. discriminate.
    + (* L = (v = d) for another value *)
      left. split; auto.
      assert (NIL : ~ In L (resolve C L [f; neg f])).
      { intro Hx. apply INR in Hx. destruct Hx as [(_ & Hx)|Hx]; [congruence|].
        apply Q3. rewrite Hx. reflexivity. }
      split; auto. right. split.
      * intros x Hx. apply INR in Hx. destruct Hx as [(Hx & _)| ->]; auto. lia.
      * apply countb_incl_lt with L; auto.
        -- apply (an_nodup _ AR).
        -- intros x Hx Px. apply INR in Hx. destruct Hx as [(Hx & _)| ->]; auto.
           exfalso. unfold posat in Px. simpl in Px. rewrite EQF in Px. discriminate.
        -- unfold posat. rewrite Q1, Z.eqb_refl. auto.
  - (* entailment *)
    destruct RO as (EQF & RO1 & d & Rd & Nd & Ld). rewrite F3 in *. subst R.
    assert (EF : f = neg L).
    { destruct F7 as [|(Q1 & Q2 & Q3)]; auto. exfalso.
      destruct (RO1 (lval L)) as (_ & X); auto. unfold lidx in F2. lia. }
    assert (LEQ : leq L = false) by (rewrite EF in EQF; simpl in EQF; destruct (leq L); auto; discriminate).
    assert (WF : lval f = lval L) by (rewrite EF; auto).
    assert (INR : forall x, In x (map (fun i => mkLit (lvar L) i true) (zrange 0 (DOM t (lvar L)))) ->
              falsifies x L = false -> lrange t x /\ lit_false t x = true /\ lidx t x < lidx t L).
    { intros x Hx Fx. apply in_map_iff in Hx. destruct Hx as (e & <- & He).
      apply in_zrange in He.
      assert (Re : range t (lvar L) e) by (split; [apply RL|lia]).
      assert (Ne : e <> lval f).
      { intros ->. assert (falsifies (mkLit (lvar L) (lval f) true) L = true); [|congruence].
        apply falsifies_iff. simpl. split; auto. left. split; auto. rewrite LEQ; discriminate. }
      destruct (RO1 e Re Ne) as (A1 & A2). split; auto. split.
      - apply lit_false_asg. simpl. auto.
      - unfold lidx; simpl. unfold lidx in F2. lia. }
    left.
    assert (AR : AN (resolve C L (map (fun i => mkLit (lvar L) i true) (zrange 0 (DOM t (lvar L)))))).
    { apply MK.
      - intros r Hr Fr. destruct (INR r Hr Fr) as (X1 & X2 & _). auto.
      - exists (mkLit (lvar L) d true). split.
        + apply in_resolve. right. split.
          * apply in_map_iff. exists d. split; auto. apply in_zrange. destruct Rd; lia.
          * destruct (falsifies (mkLit (lvar L) d true) L) eqn:X; auto. apply falsifies_iff in X.
            simpl in X. rewrite LEQ in X. intuition congruence.
        + unfold llev; simpl. lia. }
    assert (LT : forall x, In x (resolve C L (map (fun i => mkLit (lvar L) i true) (zrange 0 (DOM t (lvar L))))) ->
                 lidx t x < lidx t L).
    { intros x Hx. apply in_resolve in Hx. destruct Hx as [(Hx & Fx)|(Hx & Fx)].
      - pose proof (MX x Hx). destruct (Z.eq_dec (lidx t x) (lidx t L)) as [E|]; [|lia].
        exfalso. destruct (SAME x Hx E) as (S1 & [S2|(S2 & S3 & S4)]).
        + assert (x = L) by (rewrite <- (neg_neg x), <- S2, EF, neg_neg; auto). subst x. congruence.
        + assert (falsifies x (neg L) = true); [|congruence]. apply falsifies_iff. rewrite <- EF.
          split; [congruence|]. right. auto.
      - apply INR; auto. }
    split; auto. split; [left; auto|]. intro X. specialize (LT L X). lia.
  - (* clause *)
    destruct RO as (R' & HR' & HfR & RO1 & RO2). rewrite HRe in HR'. injection HR' as <-.
    assert (INW : forall x, In x R -> lrange t x).
    { intros x Hx. apply (HW R); auto. eapply nth_error_In; eauto. }
    assert (FfL : falsifies f L = true).
    { apply falsifies_iff. split; auto. destruct F7 as [->|(Q1 & Q2 & Q3)].
      - left. split; auto. simpl. destruct (leq L); discriminate.
      - right. auto. }
    assert (INR : forall r, In r R -> falsifies r L = false ->
                    lrange t r /\ lit_false t r = true /\ lidx t r < lidx t L).
    { intros r Hr Fr. assert (r <> f) by (intros ->; congruence).
      destruct (RO1 r Hr H) as (X1 & X2). split; auto. split; auto. lia. }
    left. destruct (leq L) eqn:LEQ.
    + (* L = (v = d): C loses only L *)
      assert (KEEP : forall x, In x C -> x <> L -> falsifies x (neg L) = false).
      { intros x Hx Nx. destruct (falsifies x (neg L)) eqn:X; auto. exfalso.
        apply falsifies_iff in X. simpl in X. rewrite LEQ in X. simpl in X.
        destruct X as (X1 & [(X2 & X)|(_ & _ & X)]); [|discriminate].
        apply Nx. apply lit_ext; auto. rewrite LEQ. destruct (leq x); congruence. }
      assert (AR : AN (resolve C L R)).
      { apply MK.
        - intros r Hr Fr. destruct (INR r Hr Fr) as (X1 & X2 & _). auto.
        - exists x0. split; auto. apply in_resolve. left. auto. }
      assert (NIL : ~ In L (resolve C L R)).
      { intro X. apply in_resolve in X. destruct X as [(_ & X)|(X & X')]; [congruence|].
        destruct (INR L X X') as (_ & _ & X3). lia. }
      split; auto. split; auto. right. split.
      * intros x Hx. apply in_resolve in Hx. destruct Hx as [(Hx & _)|(Hx & Fx)]; auto.
        destruct (INR x Hx Fx) as (_ & _ & X3). lia.
      * apply countb_incl_lt with L; auto.
        -- apply (an_nodup _ AR).
        -- intros x Hx Px. apply in_resolve in Hx. destruct Hx as [(Hx & _)|(Hx & Fx)]; auto.
           exfalso. destruct (INR x Hx Fx) as (_ & _ & X3). unfold posat in Px.
           apply andb_true_iff in Px. destruct Px as (_ & Px). apply Z.eqb_eq in Px. lia.
        -- unfold posat. rewrite LEQ, Z.eqb_refl. auto.
    + (* L = (v != w) *)
      assert (EF : f = neg L).
      { destruct F7 as [|(Q1 & Q2 & Q3)]; auto. discriminate. }
      assert (EQF : leq f = true) by (rewrite EF; simpl; rewrite LEQ; auto).
      assert (AR : AN (resolve C L R)).
      { apply MK.
        - intros r Hr Fr. destruct (INR r Hr Fr) as (X1 & X2 & _). auto.
        - destruct RO2 as (r & Hr & Nr & Lr); [lia|]. exists r. split; [|lia].
          apply in_resolve. right. split; auto.
          destruct (falsifies r L) eqn:X; auto. exfalso. apply falsifies_iff in X.
          rewrite LEQ in X. destruct X as (X1 & [(X2 & X3)|(_ & _ & X)]); [|discriminate].
          apply Nr. rewrite EF. apply lit_ext; auto. simpl. rewrite LEQ. destruct (leq r); auto. }
      assert (LT : forall x, In x (resolve C L R) -> lidx t x < lidx t L).
      { intros x Hx. apply in_resolve in Hx. destruct Hx as [(Hx & Fx)|(Hx & Fx)].
        - pose proof (MX x Hx). destruct (Z.eq_dec (lidx t x) (lidx t L)) as [E|]; [|lia].
          exfalso. destruct (SAME x Hx E) as (S1 & [S2|(S2 & S3 & S4)]).
          + assert (x = L) by (rewrite <- (neg_neg x), <- S2, EF, neg_neg; auto). subst x. congruence.
          + assert (falsifies x (neg L) = true); [|congruence]. apply falsifies_iff. rewrite <- EF.
            split; [congruence|]. right. auto.
        - apply INR; auto. }
      split; auto. split; [left; auto|]. intro X. specialize (LT L X). lia.
  - destruct HRe.
Qed.

Lemma resolve_step' C L R x1 x2 :
  AN C -> latest C L -> In x1 C -> In x2 C -> x1 <> x2 -> llev t x1 = lev -> llev t x2 = lev ->
  reason_is L R -> AN (resolve C L R) /\ smaller C (resolve C L R) L.
Proof.
  intros. edestruct (resolve_step C L R x1 x2) as [(?&?&?)|(?&?&?)]; eauto.
Qed.

(** Exactly one literal of the current level. *)
Definition one_at (C : clause) : Prop :=
  exists u, In u C /\ llev t u = lev /\ forall x, In x C -> x <> u -> llev t x < lev.
Definition two_at (C : clause) : Prop :=
  exists x y, In x C /\ In y C /\ x <> y /\ llev t x = lev /\ llev t y = lev.

Lemma an_le C x : AN C -> In x C -> 0 <= llev t x <= lev.
Proof.
  intros A Hx. apply HB; [apply (an_range _ A); auto|]. apply lit_false_as, (an_false _ A); auto.
Qed.

Lemma potent_loop_eq ls flag : DOM t 0 = 0 -> (forall x, In x ls -> lrange t x) ->
  potent_loop t lev ls flag =
  Ok (Nat.eqb (countb (fun x => llev t x =? lev) ls + (if flag then 1 else 0)) 1).
Proof.
  intro D0. revert flag. induction ls as [|l ls IH]; intros flag R.
  - simpl. destruct flag; auto.
  - cbn [potent_loop]. rewrite chk_ok by (auto; apply R; left; auto). cbn [bind].
    rewrite countb_cons. destruct (llev t l =? lev) eqn:E.
    + destruct flag.
      * f_equal. symmetry. apply Nat.eqb_neq. lia.
      * rewrite IH by (intros; apply R; right; auto). f_equal. f_equal. lia.
    + rewrite IH by (intros; apply R; right; auto). auto.
Qed.

(** The watched literals of a clause under analysis are its two latest. *)
Definition watched_ok (C : clause) (a b : lit) : Prop :=
  latest C a /\
  ((2 <= length C)%nat -> In b C /\ b <> a /\ forall x, In x C -> x <> a -> lidx t x <= lidx t b) /\
  (length C = 1%nat -> b = nolit).

Lemma an_ne C : AN C -> C <> [].
Proof. intros A ->. destruct (an_lev _ A) as (x & [] & _). Qed.

Lemma potent_ok c s C a b : DOM t 0 = 0 -> tr s = t -> level s = lev ->
  AN C -> (watch c = true -> watched_ok C a b) ->
  exists p, potent c s C b = Ok p /\ (if p then one_at C else two_at C).
Proof.
  intros D0 Et El A W. unfold potent.
  destruct (Nat.eqb_spec (length C) 1) as [L1|L1].
  { exists true. split; auto. destruct (an_lev _ A) as (u & Hu & Lu). exists u. split; auto. split; auto.
    intros x Hx Nx. exfalso. destruct C as [|z [|z' r]]; try discriminate.
    destruct Hx as [<-|[]]. destruct Hu as [<-|[]]. congruence. }
  assert (L2 : (2 <= length C)%nat).
  { pose proof (an_ne _ A). destruct C as [|z [|z' r]]; simpl in *; try congruence; lia. }
  rewrite Et, El. destruct (watch c).
  - destruct (W eq_refl) as (LA & W2 & _). destruct (W2 L2) as (Hb & Nb & Mb).
    rewrite chk_ok by (auto; apply (an_range _ A); auto). cbn [bind].
    eexists. split; [reflexivity|].
    assert (La := latest_lev C a A LA).
    destruct (Z.ltb_spec (llev t b) lev) as [H|H].
    + exists a. split; [apply LA|]. split; auto. intros x Hx Nx.
      assert (llev t x <= llev t b); [|lia].
      apply idx_level; auto; try (apply (an_range _ A); auto); apply (an_false _ A); auto.
    + exists a, b. destruct (an_le C b A Hb). split; [apply LA|]. split; auto. split; auto. split; auto. lia.
  - rewrite potent_loop_eq; auto; [|apply (an_range _ A)].
    eexists. split; [reflexivity|]. rewrite Nat.add_0_r.
    destruct (an_lev _ A) as (u & Hu & Lu).
    destruct (Nat.eqb_spec (countb (fun x => llev t x =? lev) C) 1) as [H|H].
    + exists u. split; auto. split; auto. intros x Hx Nx. destruct (an_le C x A Hx).
      destruct (Z.eq_dec (llev t x) lev) as [E|]; [|lia]. exfalso. apply Nx.
      apply (countb_one_unique (fun x => llev t x =? lev) C x u); auto; [lia| |]; apply Z.eqb_eq; auto.
    + assert (0 < countb (fun x => (llev t x =? lev)%Z) C)%nat.
      { apply countb_pos. exists u. split; auto. apply Z.eqb_eq; auto. }
      destruct (countb_two (fun x => llev t x =? lev) C) as (x & y & X1 & X2 & X3 & X4 & X5);
        [lia|apply (an_nodup _ A)|].
      exists x, y. apply Z.eqb_eq in X4, X5. auto.
Qed.

Lemma an_idx C x : AN C -> In x C -> 0 <= lidx t x.
Proof.
  intros A Hx. destruct (false_entry x) as (i & f & _ & E & _).
  - apply (an_range _ A); auto.
  - apply (an_false _ A); auto.
  - lia.
Qed.

Lemma max_lit_ok C : DOM t 0 = 0 -> AN C ->
  exists i L, max_lit t C = Ok i /\ nth_error C i = Some L /\ latest C L.
Proof.
  intros D0 A. unfold max_lit.
  assert (G : forall ls done best, C = done ++ ls ->
    (exists L, nth_error C (fst best) = Some L /\ snd best <= lidx t L /\ (done = [] -> best = (O, 0)) /\
               (done <> [] -> snd best = lidx t L \/ fst best = O /\ snd best = 0) /\
               forall x, In x done -> lidx t x <= snd best) ->
    exists i L, max_lit_loop t ls (length done) best = Ok i /\ nth_error C i = Some L /\
      snd best <= lidx t L /\ latest C L).
  { induction ls as [|l ls IH]; intros done best E (L & H1 & H2 & H3 & H4 & H5).
    - exists (fst best), L. split; auto. split; auto. split; auto. split.
      + eapply nth_error_In; eauto.
      + intros x Hx. rewrite app_nil_r in E. subst done. specialize (H5 x Hx). lia.
    - cbn [max_lit_loop]. assert (Hl : In l C) by (rewrite E; apply in_app_iff; right; left; auto).
      rewrite chk_ok by (auto; apply (an_range _ A); auto). cbn [bind].
      assert (E' : C = (done ++ [l]) ++ ls) by (rewrite <- app_assoc; auto).
      assert (LN : S (length done) = length (done ++ [l])) by (rewrite app_length; simpl; lia).
      rewrite LN.
      destruct (Z.ltb_spec (snd best) (lidx t l)) as [B|B].
      + destruct (IH (done ++ [l]) (length done, lidx t l)) as (i & L' & X1 & X2 & X3 & X4); auto.
        * exists l. simpl. split.
          { rewrite E. rewrite nth_error_app2, Nat.sub_diag by lia. auto. }
          split; [lia|]. split; [intro X; destruct done; discriminate|]. split; auto.
          intros x Hx. apply in_app_iff in Hx. destruct Hx as [Hx|[<-|[]]]; [|lia].
          specialize (H5 x Hx). lia.
        * exists i, L'. simpl in X3. split; auto. split; auto. split; auto. lia.
      + destruct (IH (done ++ [l]) best) as (i & L' & X1 & X2 & X3 & X4); auto.
        * exists L. split; auto. split; auto. split; [intro X; destruct done; discriminate|]. split.
          { intros _. destruct done as [|z r]; [|apply H4; discriminate].
            rewrite (H3 eq_refl). auto. }
          intros x Hx. apply in_app_iff in Hx. destruct Hx as [Hx|[<-|[]]]; auto.
        * exists i, L'. auto. }
  pose proof (an_ne C A). destruct C as [|z r] eqn:EC; [congruence|].
  destruct (G (z :: r) [] (O, 0)) as (i & L & X1 & X2 & _ & X4); auto.
  - exists z. split; auto. split; [apply (an_idx _ z A); left; auto|]. split; auto.
    split; [congruence|]. intros x [].
  - exists i, L. auto.
Qed.

Lemma assign_watched_ok C : DOM t 0 = 0 -> AN C ->
  exists a b, assign_watched t C = Ok (a, b) /\ watched_ok C a b.
Proof.
  intros D0 A. unfold assign_watched.
  set (inv := fun (done : clause) (b1 b2 : lit * Z) =>
    match done with
    | [] => b1 = (nolit, -1) /\ b2 = (nolit, -1)
    | _ => In (fst b1) done /\ snd b1 = lidx t (fst b1) /\ (forall x, In x done -> lidx t x <= snd b1) /\
           (length done = 1%nat -> b2 = (nolit, -1)) /\
           ((2 <= length done)%nat -> In (fst b2) done /\ snd b2 = lidx t (fst b2) /\ fst b2 <> fst b1 /\
             forall x, In x done -> x <> fst b1 -> lidx t x <= snd b2)
    end).
  assert (G : forall ls done b1 b2, C = done ++ ls -> inv done b1 b2 ->
    exists c1 c2, assign_watched_loop t ls b1 b2 = Ok (fst c1, fst c2) /\ inv C c1 c2).
  { induction ls as [|l ls IH]; intros done b1 b2 E I.
    - rewrite app_nil_r in E. subst done. exists b1, b2. auto.
    - cbn [assign_watched_loop].
      assert (Hl : In l C) by (rewrite E; apply in_app_iff; right; left; auto).
      rewrite chk_ok by (auto; apply (an_range _ A); auto). cbn [bind]. cbv zeta.
      assert (E' : C = (done ++ [l]) ++ ls) by (rewrite <- app_assoc; auto).
      assert (Ix := an_idx C l A Hl).
      assert (NL : ~ In l done).
      { pose proof (an_nodup _ A) as ND. rewrite E in ND. apply NoDup_remove_2 in ND.
        intro X. apply ND. apply in_app_iff; auto. }
      destruct done as [|z r].
      + destruct I as (-> & ->). simpl snd. destruct (Z.ltb_spec (-1) (lidx t l)); [|lia].
        apply (IH [l] (l, lidx t l) (nolit, -1)); auto. simpl.
        split; auto. split; auto. split; [intros x [<-|[]]; lia|]. split; auto. lia.
      + destruct I as (I1 & I2 & I3 & I4 & I5).
        assert (LE : (1 <= length (z :: r))%nat) by (simpl; lia).
        assert (LS : length ((z :: r) ++ [l]) = S (length (z :: r))) by (rewrite app_length; simpl; lia).
        remember (z :: r) as dn. assert (DN : exists z' r', dn ++ [l] = z' :: r').
        { rewrite Heqdn. simpl. eauto. }
        assert (INV : forall c1 c2,
           In (fst c1) (dn ++ [l]) /\ snd c1 = lidx t (fst c1) /\ (forall x, In x (dn ++ [l]) -> lidx t x <= snd c1) /\
           (length (dn ++ [l]) = 1%nat -> c2 = (nolit, -1)) /\
           ((2 <= length (dn ++ [l]))%nat -> In (fst c2) (dn ++ [l]) /\ snd c2 = lidx t (fst c2) /\ fst c2 <> fst c1 /\
             forall x, In x (dn ++ [l]) -> x <> fst c1 -> lidx t x <= snd c2) -> inv (dn ++ [l]) c1 c2).
        { destruct DN as (z' & r' & ->). intros c1 c2 X. exact X. }
        assert (N1 : fst b1 <> l) by (intros X; rewrite X in I1; auto).
        destruct (Z.ltb_spec (snd b1) (lidx t l)) as [B|B].
        * apply (IH (dn ++ [l])); auto. apply INV. cbn [fst snd].
          split; [apply in_app_iff; right; left; auto|]. split; auto. split.
          { intros x Hx. apply in_app_iff in Hx. destruct Hx as [Hx|[<-|[]]]; [|lia]. specialize (I3 x Hx). lia. }
          split; [lia|]. intros _. split; [apply in_app_iff; auto|]. split; auto. split; auto.
          intros x Hx Nx. apply in_app_iff in Hx. destruct Hx as [Hx|[<-|[]]]; [|congruence]. auto.
        * destruct (Z.ltb_spec (snd b2) (lidx t l)) as [B2|B2].
          -- apply (IH (dn ++ [l])); auto. apply INV. cbn [fst snd].
             split; [apply in_app_iff; auto|]. split; auto. split.
             { intros x Hx. apply in_app_iff in Hx. destruct Hx as [Hx|[<-|[]]]; auto. }
             split; [lia|]. intros _. split; [apply in_app_iff; right; left; auto|]. split; auto. split; auto.
             intros x Hx Nx. apply in_app_iff in Hx. destruct Hx as [Hx|[<-|[]]]; [|lia].
             destruct (Nat.eq_dec (length dn) 1) as [D1|D1].
             { exfalso. rewrite Heqdn in *. destruct r; [|discriminate]. simpl in I1, Hx. intuition congruence. }
             destruct I5 as (J1 & J2 & J3 & J4); [lia|]. specialize (J4 x Hx Nx). lia.
          -- apply (IH (dn ++ [l])); auto. apply INV.
             assert (L2 : (2 <= length dn)%nat).
             { destruct (Nat.eq_dec (length dn) 1) as [D1|D1]; [|lia]. rewrite (I4 D1) in B2. simpl in B2. lia. }
             destruct (I5 L2) as (J1 & J2 & J3 & J4).
             split; [apply in_app_iff; auto|]. split; auto. split.
             { intros x Hx. apply in_app_iff in Hx. destruct Hx as [Hx|[<-|[]]]; auto. }
             split; [lia|]. intros _. split; [apply in_app_iff; auto|]. split; auto. split; auto.
             intros x Hx Nx. apply in_app_iff in Hx. destruct Hx as [Hx|[<-|[]]]; auto. }
  destruct (G C [] (nolit, -1) (nolit, -1)) as (c1 & c2 & E & I); auto.
  { split; auto. }
  exists (fst c1), (fst c2). split; auto. pose proof (an_ne C A) as NE.
  unfold inv in I. destruct C as [|z r]; [congruence|]. destruct I as (I1 & I2 & I3 & I4 & I5).
  split.
  - split; auto. intros x Hx. rewrite <- I2. auto.
  - split.
    + intro L2. destruct (I5 L2) as (J1 & J2 & J3 & J4). split; auto. split; auto.
      intros x Hx Nx. rewrite <- J2. auto.
    + intro L1. rewrite (I4 L1). reflexivity.
Qed.

(** The reason clause exists and is a consequence of the clauses. *)
Lemma reason_clause_ok s L C : DOM t 0 = 0 -> tr s = t -> cl s = cls -> AN C -> latest C L ->
  exists R, reason_clause s L = Ok R /\ reason_is L R /\
    forall a, legalT a t -> (forall c, In c cls -> clause_holds a c) -> clause_holds a R.
Proof.
  intros D0 Et Ec A (HLC & MX). assert (RL := an_range _ A L HLC). assert (FL := an_false _ A L HLC).
  destruct (false_entry L RL FL) as (i & f & F1 & F2 & F3 & F4 & F5 & F6 & F7).
  pose proof (HR i f F1) as RO. unfold reason_ok in RO. rewrite F5 in RO.
  unfold reason_clause, reason_is. rewrite Et, chk_ok by auto. cbn [bind].
  destruct (CID t (lvar L) (lval L)) as [| |n|] eqn:CL.
  - rewrite F2, Nat2Z.id. destruct (Z.ltb_spec (Z.of_nat i) 0); [lia|]. rewrite F1.
    eexists. split; [reflexivity|]. split; [exists f; auto|].
    intros a _ _. destruct (lit_holds_dec a (mkLit (lvar f) (lval f) true)) as [X|X].
    + exists (mkLit (lvar f) (lval f) true). split; auto. left; auto.
    + exists (neg (mkLit (lvar f) (lval f) true)). split; [right; left; auto|]. apply lit_holds_neg; auto.
  - eexists. split; [reflexivity|]. split; auto. intros a La _.
    exists (mkLit (lvar L) (a (lvar L)) true). split; [|reflexivity].
    apply in_map_iff. exists (a (lvar L)). split; auto. apply in_zrange.
    destruct (La (lvar L)) as (X & Y); [apply RL|].
    destruct RO as (_ & _ & d & (_ & Rd) & Nd & _). rewrite F3 in Rd.
    destruct (td_dst _ HD i f F1) as ((_ & Rf) & _ & _). rewrite F3 in Rf. lia.
  - destruct RO as (R & HRn & _). exists R. unfold getcl. rewrite Ec, HRn. split; auto. split; auto.
    intros a _ Ha. apply Ha. eapply nth_error_In; eauto.
  - destruct RO.
Qed.

Definition entailed (C : clause) : Prop :=
  forall a, legalT a t -> (forall c, In c cls -> clause_holds a c) -> clause_holds a C.

(** What analysis learns: a falsified consequence with one literal of the current level. *)
Lemma analyze_ok c s C a b temp :
  DOM t 0 = 0 -> tr s = t -> cl s = cls -> level s = lev ->
  AN C -> entailed C -> (watch c = true -> watched_ok C a b) -> (temp = false -> two_at C) ->
  exists N C' a' b',
    (forall fuel, (N <= fuel)%nat -> analyze fuel c s C a b temp =
       (let* s' := learn_clause c s C' a' b' in Ok (s', (C', (a', b'))))) /\
    AN C' /\ entailed C' /\ one_at C' /\ (watch c = true -> watched_ok C' a' b').
Proof.
  intros D0 Et Ec El.
  assert (G : forall k, 0 <= k -> forall p C a b temp,
    AN C -> entailed C -> (watch c = true -> watched_ok C a b) -> (temp = false -> two_at C) ->
    (forall x, In x C -> lidx t x < k) -> (forall x, In x C -> lidx t x = k - 1 -> (countb (posat (k - 1)) C <= p)%nat) ->
    exists N C' a' b',
    (forall fuel, (N <= fuel)%nat -> analyze fuel c s C a b temp =
       (let* s' := learn_clause c s C' a' b' in Ok (s', (C', (a', b'))))) /\
    AN C' /\ entailed C' /\ one_at C' /\ (watch c = true -> watched_ok C' a' b')).
  { intros k K. pattern k. apply Zlt_0_ind; auto. clear k K. intros k IHk K.
    induction p as [p IHp] using lt_wf_ind. clear C a b temp. intros C a b temp A EN W T2 BK BP.
    destruct (potent_ok c s C a b D0 Et El A W) as (po & EP & HP).
    destruct po.
    - assert (temp = true) as ->.
      { destruct temp; auto. exfalso. destruct (T2 eq_refl) as (x & y & X1 & X2 & X3 & X4 & X5).
        destruct HP as (u & U1 & U2 & U3).
        destruct (lit_eq_dec x u) as [->|N].
        - assert (llev t y < lev) by (apply U3; auto). lia.
        - assert (llev t x < lev) by (apply U3; auto). lia. }
      exists 1%nat, C, a, b. split; auto. intros fuel Hf. destruct fuel as [|fuel]; [lia|].
      cbn [analyze]. rewrite EP. reflexivity.
    - destruct HP as (x1 & x2 & I1 & I2 & N12 & V1 & V2).
      assert (LAST : exists L, latest C L /\
        (if watch c then Ok a else let* i := max_lit (tr s) C in
               match nth_error C i with Some l => Ok l | None => Undef OobClause end) = Ok L).
      { destruct (watch c).
        - exists a. split; auto. apply (W eq_refl).
        - destruct (max_lit_ok C D0 A) as (i & L & X1 & X2 & X3). exists L. split; auto.
          rewrite Et, X1. cbn [bind]. rewrite X2. auto. }
      destruct LAST as (L & LT & EL).
      destruct (reason_clause_ok s L C D0 Et Ec A LT) as (R & ER & RI & RE).
      destruct (resolve_step' C L R x1 x2) as (A' & SM); auto.
      assert (EN' : entailed (resolve C L R)).
      { intros v Lv Hv. apply resolve_sound; auto. }
      assert (WA : exists w, (if watch c then assign_watched (tr s) (resolve C L R) else Ok (nolit, nolit)) = Ok w /\
                     (watch c = true -> watched_ok (resolve C L R) (fst w) (snd w))).
      { destruct (watch c).
        - destruct (assign_watched_ok _ D0 A') as (a' & b' & X1 & X2). exists (a', b'). rewrite Et. auto.
        - exists (nolit, nolit). split; auto. discriminate. }
      destruct WA as (w & EW & HWw).
      assert (REC : exists N C' a' b',
        (forall fuel, (N <= fuel)%nat -> analyze fuel c s (resolve C L R) (fst w) (snd w) true =
           (let* s' := learn_clause c s C' a' b' in Ok (s', (C', (a', b'))))) /\
        AN C' /\ entailed C' /\ one_at C' /\ (watch c = true -> watched_ok C' a' b')).
      { assert (LK := BK L (proj1 LT)). assert (L0 := an_idx C L A (proj1 LT)).
        destruct SM as [SM|(SM1 & SM2)].
        - apply (IHk (lidx t L)) with (p := length (resolve C L R)); auto; try lia; try discriminate.
          intros _ _ _. apply countb_le_length.
        - destruct (Z.eq_dec (lidx t L) (k - 1)) as [EK|NK].
          + rewrite EK in *. apply (IHp (countb (posat (k - 1)) (resolve C L R))); auto; try discriminate.
            * specialize (BP L (proj1 LT) EK). lia.
            * intros x Hx. specialize (SM1 x Hx). lia.
          + apply (IHk (lidx t L + 1)) with (p := length (resolve C L R)); auto; try lia; try discriminate.
            * intros x Hx. specialize (SM1 x Hx). lia.
            * intros _ _ _. apply countb_le_length. }
      destruct REC as (N & C' & a' & b' & RN & R1 & R2 & R3 & R4).
      exists (S N), C', a', b'. split; auto. intros fuel Hf. destruct fuel as [|fuel]; [lia|].
      cbn [analyze]. rewrite EP. cbn [bind]. rewrite EL. cbn [bind]. rewrite ER. cbn [bind]. cbv zeta.
      rewrite EW. cbn [bind]. apply RN. lia. }
  intros A EN W T2.
  apply (G (Z.of_nat (length (DST t)))) with (p := length C); auto.
  - lia.
  - intros x Hx. destruct (false_entry x) as (i & f & F1 & F2 & _).
    + apply (an_range _ A); auto.
    + apply (an_false _ A); auto.
    + apply nth_error_lt in F1. lia.
  - intros _ _ _. apply countb_le_length.
Qed.

End Step.
