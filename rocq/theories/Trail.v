(** * Invariants of the assignment trail

    These facts concern only the assignment part of the state ([trail]); they are shared by
    the counter-based and the watched-literal search. *)

From Verif Require Import Spec Outcome State ModelCounter ModelLearn Base.

(** ** Definitions *)

Definition range (t : trail) (v d : Z) : Prop := 1 <= v <= NV t /\ 0 <= d < DOM t v.
Definition lrange (t : trail) (l : lit) : Prop := range t (lvar l) (lval l).

(** DECSTACK push and recording of an atom, on trails. *)
Definition pushT (t : trail) (l : lit) : trail :=
  mkTrail (NV t) (DOM t) (VAL t) (ASG t) (ALEV t) (AIDX t) (CID t) (DST t ++ [l]).
Definition markT (t : trail) (lev : Z) (r : reason) (v d : Z) (a : aval) : trail :=
  mkTrail (NV t) (DOM t)
    (match a with Pos => upd1 (VAL t) v d | _ => VAL t end)
    (upd2 (ASG t) v d a) (upd2 (ALEV t) v d lev)
    (upd2 (AIDX t) v d (Z.of_nat (length (DST t)) - 1))
    (upd2 (CID t) v d r) (DST t).

Definition openat (t : trail) (k v d : Z) : Prop := ASG t v d = Un \/ k < ALEV t v d.

(** Domain consistency at level [lev].  [ex] is a set of variables that are momentarily
    exempt at the topmost level (the variable being worked on; every variable while there is
    a conflict). *)
Record TB (t : trail) (lev : Z) (ex : Z -> Prop) : Prop := mkTB {
  tb_nv : 0 <= NV t;
  tb_dom0 : DOM t 0 = 0;
  tb_dom : forall v, 1 <= v <= NV t -> 0 <= DOM t v;
  tb_val0 : VAL t 0 <> -1;
  tb_un : forall v d, range t v d -> ASG t v d = Un -> ALEV t v d = -10;
  tb_as : forall v d, range t v d -> ASG t v d <> Un -> 0 <= ALEV t v d <= lev;
  tb_pos : forall v d, range t v d -> ASG t v d = Pos -> VAL t v = d;
  tb_val : forall v, 1 <= v <= NV t -> VAL t v <> -1 ->
             range t v (VAL t v) /\ ASG t v (VAL t v) = Pos;
  tb_neg : forall v d d', range t v d -> range t v d' -> ASG t v d = Pos -> d' <> d ->
             (ALEV t v d < lev \/ ~ ex v) -> ASG t v d' = Neg /\ ALEV t v d' <= ALEV t v d;
  tb_two : forall v k, 1 <= v <= NV t -> 2 <= DOM t v -> (k < lev \/ k = lev /\ ~ ex v) ->
             (forall d, range t v d -> ASG t v d = Pos -> k < ALEV t v d) ->
             exists d1 d2, d1 <> d2 /\ range t v d1 /\ range t v d2 /\
                           openat t k v d1 /\ openat t k v d2
}.

(** The decision stack explains every assigned atom. *)
Record TD (t : trail) : Prop := mkTD {
  td_atom : forall v d, range t v d -> ASG t v d <> Un ->
    exists i f, nth_error (DST t) i = Some f /\ AIDX t v d = Z.of_nat i /\ lvar f = v /\
                llev t f = ALEV t v d /\ CID t v (lval f) = CID t v d /\
                (f = mkLit v d (match ASG t v d with Pos => true | _ => false end) \/
                 ASG t v d = Neg /\ leq f = true /\ lval f <> d);
  td_dst : forall i f, nth_error (DST t) i = Some f ->
    lrange t f /\ lit_true t f = true /\ lidx t f = Z.of_nat i;
  td_mono : forall i j f g, nth_error (DST t) i = Some f -> nth_error (DST t) j = Some g ->
    (i <= j)%nat -> llev t f <= llev t g
}.

(** Reasons. *)
Definition reason_ok (t : trail) (cls : list clause) (i : nat) (f : lit) : Prop :=
  match CID t (lvar f) (lval f) with
  | RDec => 1 <= llev t f /\
            forall j g, (j < i)%nat -> nth_error (DST t) j = Some g -> llev t g < llev t f
  | RCls n => exists R, nth_error cls n = Some R /\ In f R /\
                (forall r, In r R -> r <> f -> lit_false t r = true /\ lidx t r < Z.of_nat i) /\
                (0 < llev t f -> exists r, In r R /\ r <> f /\ llev t r = llev t f)
  | REnt => leq f = true /\
            (forall d, range t (lvar f) d -> d <> lval f ->
               ASG t (lvar f) d = Neg /\ AIDX t (lvar f) d < Z.of_nat i) /\
            exists d, range t (lvar f) d /\ d <> lval f /\ ALEV t (lvar f) d = llev t f
  | RUndef => False
  end.

Definition TR (t : trail) (cls : list clause) : Prop :=
  forall i f, nth_error (DST t) i = Some f -> reason_ok t cls i f.

(** [t'] extends [t]: what is assigned in [t] is unchanged. *)
Record ext (t t' : trail) : Prop := mkExt {
  ext_nv : NV t' = NV t;
  ext_dom : DOM t' = DOM t;
  ext_asg : forall v d, ASG t v d <> Un -> ASG t' v d = ASG t v d;
  ext_lev : forall v d, ASG t v d <> Un -> ALEV t' v d = ALEV t v d;
  ext_idx : forall v d, ASG t v d <> Un -> AIDX t' v d = AIDX t v d;
  ext_cid : forall v d, ASG t v d <> Un -> CID t' v d = CID t v d;
  ext_dst : exists xs, DST t' = DST t ++ xs
}.

(** The trail cut back to level [k]. *)
Record cut (t : trail) (k : Z) (t' : trail) : Prop := mkCut {
  cut_nv : NV t' = NV t;
  cut_dom : DOM t' = DOM t;
  cut_gone : forall v d, range t v d -> k < ALEV t v d ->
    ASG t' v d = Un /\ ALEV t' v d = -10 /\ CID t' v d = RUndef;
  cut_kept : forall v d, range t v d -> ALEV t v d <= k ->
    ASG t' v d = ASG t v d /\ ALEV t' v d = ALEV t v d /\ CID t' v d = CID t v d;
  cut_idx : forall v d, AIDX t' v d = AIDX t v d;
  cut_val : forall v, (exists d, range t v d /\ k < ALEV t v d) -> VAL t' v = -1;
  cut_val' : forall v, (forall d, range t v d -> ALEV t v d <= k) -> VAL t' v = VAL t v;
  cut_dst : DST t' = filter (fun l => llev t l <=? k) (DST t)
}.

(** ** Basic facts *)

Lemma lit_ok_range t l : DOM t 0 = 0 -> (lit_ok t l = true <-> lrange t l).
Proof.
  intro H. unfold lit_ok, in_range, lrange, range.
  rewrite !andb_true_iff, !Z.leb_le, Z.ltb_lt. split; [|lia].
  intros (((H1 & H2) & H3) & H4).
  assert (lvar l <> 0) by (intro E; rewrite E in H4; lia). lia.
Qed.

Lemma chk_ok t l : DOM t 0 = 0 -> lrange t l -> chk t l = Ok tt.
Proof. intros H0 H. apply (lit_ok_range t l H0) in H. unfold chk; rewrite H; reflexivity. Qed.

Lemma lit_un_iff t l : lit_un t l = true <-> ASG t (lvar l) (lval l) = Un.
Proof. unfold lit_un; destruct (ASG t (lvar l) (lval l)); split; congruence. Qed.

Lemma lit_un_false_iff t l : lit_un t l = false <-> ASG t (lvar l) (lval l) <> Un.
Proof. unfold lit_un; destruct (ASG t (lvar l) (lval l)); split; congruence. Qed.

Lemma lit_true_asg t l :
  lit_true t l = true <-> ASG t (lvar l) (lval l) = if leq l then Pos else Neg.
Proof. unfold lit_true; destruct (ASG t (lvar l) (lval l)), (leq l); split; congruence. Qed.

Lemma lit_false_asg t l :
  lit_false t l = true <-> ASG t (lvar l) (lval l) = if leq l then Neg else Pos.
Proof. unfold lit_false; destruct (ASG t (lvar l) (lval l)), (leq l); split; congruence. Qed.

Lemma lit_true_as t l : lit_true t l = true -> ASG t (lvar l) (lval l) <> Un.
Proof. rewrite lit_true_asg; intros ->; destruct (leq l); congruence. Qed.

Lemma lit_false_as t l : lit_false t l = true -> ASG t (lvar l) (lval l) <> Un.
Proof. rewrite lit_false_asg; intros ->; destruct (leq l); congruence. Qed.

Lemma lit_cases t l :
  (lit_true t l = true /\ lit_un t l = false /\ lit_false t l = false) \/
  (lit_true t l = false /\ lit_un t l = true /\ lit_false t l = false) \/
  (lit_true t l = false /\ lit_un t l = false /\ lit_false t l = true).
Proof.
  unfold lit_true, lit_un, lit_false; destruct (ASG t (lvar l) (lval l)), (leq l); auto.
Qed.

Lemma lit_true_neg t l : lit_true t (neg l) = lit_false t l.
Proof. unfold lit_true, lit_false, neg; simpl. destruct (ASG t (lvar l) (lval l)), (leq l); auto. Qed.

Lemma lit_false_neg t l : lit_false t (neg l) = lit_true t l.
Proof. unfold lit_true, lit_false, neg; simpl. destruct (ASG t (lvar l) (lval l)), (leq l); auto. Qed.

(** ** Extension *)

Lemma ext_refl t : ext t t.
Proof. split; auto. exists []; rewrite app_nil_r; auto. Qed.

Lemma ext_trans t1 t2 t3 : ext t1 t2 -> ext t2 t3 -> ext t1 t3.
Proof.
  intros A B. split.
  - rewrite (ext_nv _ _ B); apply A.
  - rewrite (ext_dom _ _ B); apply A.
  - intros v d H. rewrite (ext_asg _ _ B), (ext_asg _ _ A); auto. rewrite (ext_asg _ _ A); auto.
  - intros v d H. rewrite (ext_lev _ _ B), (ext_lev _ _ A); auto. rewrite (ext_asg _ _ A); auto.
  - intros v d H. rewrite (ext_idx _ _ B), (ext_idx _ _ A); auto. rewrite (ext_asg _ _ A); auto.
  - intros v d H. rewrite (ext_cid _ _ B), (ext_cid _ _ A); auto. rewrite (ext_asg _ _ A); auto.
  - destruct (ext_dst _ _ A) as (x1 & E1), (ext_dst _ _ B) as (x2 & E2).
    exists (x1 ++ x2). rewrite E2, E1, app_assoc; auto.
Qed.

Lemma ext_push t l : ext t (pushT t l).
Proof. split; simpl; auto. eauto. Qed.

Lemma ext_mark t lev r v d a : ASG t v d = Un -> ext t (markT t lev r v d a).
Proof.
  intro H. split; simpl; auto.
  1-4: intros v' d' H'; apply upd2_other;
       destruct (Z.eq_dec v' v); auto; destruct (Z.eq_dec d' d); auto; subst; congruence.
  exists []; rewrite app_nil_r; auto.
Qed.

Lemma ext_range t t' v d : ext t t' -> (range t' v d <-> range t v d).
Proof. intro E; unfold range; rewrite (ext_nv _ _ E), (ext_dom _ _ E); tauto. Qed.

Lemma ext_true t t' l : ext t t' -> lit_true t l = true -> lit_true t' l = true.
Proof.
  intros E H. pose proof (lit_true_as _ _ H) as A. rewrite lit_true_asg in *.
  rewrite (ext_asg _ _ E); auto.
Qed.

Lemma ext_false t t' l : ext t t' -> lit_false t l = true -> lit_false t' l = true.
Proof.
  intros E H. pose proof (lit_false_as _ _ H) as A. rewrite lit_false_asg in *.
  rewrite (ext_asg _ _ E); auto.
Qed.

Lemma ext_llev t t' l : ext t t' -> lit_un t l = false -> llev t' l = llev t l.
Proof. intros E H. apply lit_un_false_iff in H. apply (ext_lev _ _ E); auto. Qed.

Lemma ext_lidx t t' l : ext t t' -> lit_un t l = false -> lidx t' l = lidx t l.
Proof. intros E H. apply lit_un_false_iff in H. apply (ext_idx _ _ E); auto. Qed.

Lemma lit_true_un t l : lit_true t l = true -> lit_un t l = false.
Proof. destruct (lit_cases t l) as [H|[H|H]]; intuition congruence. Qed.

Lemma lit_false_un t l : lit_false t l = true -> lit_un t l = false.
Proof. destruct (lit_cases t l) as [H|[H|H]]; intuition congruence. Qed.

Lemma ext_nth t t' i f : ext t t' -> nth_error (DST t) i = Some f -> nth_error (DST t') i = Some f.
Proof.
  intros E H. destruct (ext_dst _ _ E) as (xs & ->). rewrite nth_error_app1; auto.
  apply nth_error_lt in H; auto.
Qed.

Lemma ext_nth_back t t' i f : ext t t' -> (i < length (DST t))%nat ->
  nth_error (DST t') i = Some f -> nth_error (DST t) i = Some f.
Proof.
  intros E L H. destruct (ext_dst _ _ E) as (xs & E1). rewrite E1, nth_error_app1 in H; auto.
Qed.

(** Reasons survive extension. *)
Lemma reason_ok_ext t t' cls i f :
  TD t -> ext t t' -> nth_error (DST t) i = Some f -> reason_ok t cls i f -> reason_ok t' cls i f.
Proof.
  intros D E Hi H. unfold reason_ok in *.
  destruct (td_dst _ D _ _ Hi) as (Hr & Ht & Hx).
  pose proof (lit_true_un _ _ Ht) as Hu.
  pose proof Hu as Hu'; apply lit_un_false_iff in Hu'.
  rewrite (ext_cid _ _ E) by auto. rewrite (ext_llev t t' f) by auto.
  destruct (CID t (lvar f) (lval f)) as [| |n|]; auto.
  - destruct H as (H1 & H2). split; auto. intros j g Hj Hg.
    apply (ext_nth_back t t') in Hg; auto.
    2: { apply nth_error_lt in Hi; lia. }
    destruct (td_dst _ D _ _ Hg) as (_ & Htg & _).
    rewrite (ext_llev t t' g); auto. apply (H2 j g); auto. apply lit_true_un; auto.
  - destruct H as (H1 & H2 & d & Hd & Hd' & Hd''). split; auto. split.
    + intros d0 R0 N0. apply (ext_range t t') in R0; auto.
      destruct (H2 d0 R0 N0) as (A1 & A2).
      rewrite (ext_asg _ _ E), (ext_idx _ _ E) by congruence. auto.
    + exists d. split; [apply (ext_range t t'); auto|]. split; auto.
      destruct (H2 d Hd Hd') as (A1 & _). rewrite (ext_lev _ _ E) by congruence. auto.
  - destruct H as (R & HR & HfR & H1 & H2). exists R; repeat split; auto.
    + apply (ext_false t t'); auto. apply H1; auto.
    + rewrite (ext_lidx t t'); auto. apply H1; auto.
      apply lit_false_un. apply H1; auto.
    + intro L. destruct (H2 L) as (r & Hr1 & Hr2 & Hr3). exists r; repeat split; auto.
      rewrite (ext_llev t t'); auto. apply lit_false_un, H1; auto.
Qed.

(** ** Weakening of [TB] *)

Lemma TB_weaken t lev (ex ex' : Z -> Prop) :
  TB t lev ex -> (forall v, ex v -> ex' v) -> TB t lev ex'.
Proof.
  intros H Hx. destruct H as [a b c d e f g h i j]. split; auto.
  - intros v d0 d' R R' P N L. apply i; auto. intuition.
  - intros v k V W K. apply j; auto. intuition.
Qed.

(** At a higher level without exemptions (a new decision level). *)
Lemma TB_level t lev lev' ex :
  TB t lev (fun _ => False) -> lev <= lev' -> TB t lev' ex.
Proof.
  intros H L. destruct H as [a b c d e f g h i j]. split; auto.
  - intros v d0 R A. specialize (f v d0 R A). lia.
  - intros v k V W K P.
    destruct (Z.le_gt_cases k lev).
    + destruct (j v k V W) as (d1 & d2 & HH); auto.
      * destruct (Z.eq_dec k lev); [right|left]; auto. lia.
      * exists d1, d2; auto.
    + (* no atom is assigned above lev *)
      destruct (j v lev V W) as (d1 & d2 & N & R1 & R2 & O1 & O2); auto.
      * intros d0 R0 P0. specialize (P d0 R0 P0). specialize (f v d0 R0). rewrite P0 in f.
        assert (0 <= ALEV t v d0 <= lev) by (apply f; congruence). lia.
      * exists d1, d2. repeat split; try apply R1; try apply R2; auto.
        -- destruct O1 as [O1|O1]; [left; auto|]. destruct (ASG t v d1) eqn:E; [left; auto| |];
           assert (0 <= ALEV t v d1 <= lev) by (apply f; congruence); lia.
        -- destruct O2 as [O2|O2]; [left; auto|]. destruct (ASG t v d2) eqn:E; [left; auto| |];
           assert (0 <= ALEV t v d2 <= lev) by (apply f; congruence); lia.
Qed.

(** ** Assigning the first atom of a reduction *)

Definition pol (e : bool) : aval := if e then Pos else Neg.

Definition firstT (t : trail) (lev : Z) (r : reason) (l : lit) : trail :=
  markT (pushT t l) lev r (lvar l) (lval l) (pol (leq l)).

Lemma firstT_ext t lev r l : ASG t (lvar l) (lval l) = Un -> ext t (firstT t lev r l).
Proof.
  intro H. unfold firstT. eapply ext_trans; [apply (ext_push t l)|]. apply ext_mark; auto.
Qed.

Lemma upd2_cases {A} (f : Z -> Z -> A) v d a v' d' :
  (v' = v /\ d' = d /\ upd2 f v d a v' d' = a) \/
  ((v' <> v \/ d' <> d) /\ upd2 f v d a v' d' = f v' d').
Proof.
  destruct (Z.eq_dec v' v) as [->|N]; [destruct (Z.eq_dec d' d) as [->|N]|].
  - left; rewrite upd2_same; auto.
  - right; rewrite upd2_other; auto.
  - right; rewrite upd2_other; auto.
Qed.

Lemma pol_un e : pol e <> Un.
Proof. destruct e; simpl; congruence. Qed.

(** No atom of a variable without value is [Pos]. *)
Lemma noval_nopos t lev ex v d :
  TB t lev ex -> range t v d -> VAL t v = -1 -> ASG t v d <> Pos.
Proof.
  intros H R V P. pose proof (tb_pos _ _ _ H _ _ R P). destruct R; lia.
Qed.

Lemma firstT_TB t lev r l (ex ex' : Z -> Prop) :
  TB t lev ex -> 0 <= lev -> lrange t l -> ASG t (lvar l) (lval l) = Un ->
  VAL t (lvar l) = -1 -> (forall w, ex w -> ex' w) -> ex' (lvar l) ->
  TB (firstT t lev r l) lev ex'.
Proof.
  intros H L0 R U V Hx Hxv. destruct l as [v d e]; unfold lrange in R; simpl in *.
  set (t' := firstT t lev r (mkLit v d e)).
  assert (A' : ASG t' = upd2 (ASG t) v d (pol e)) by reflexivity.
  assert (L' : ALEV t' = upd2 (ALEV t) v d lev) by reflexivity.
  assert (V' : VAL t' = if e then upd1 (VAL t) v d else VAL t) by (destruct e; reflexivity).
  assert (N' : NV t' = NV t) by reflexivity.
  assert (D' : DOM t' = DOM t) by reflexivity.
  assert (Rg : forall v' d', range t' v' d' <-> range t v' d')
    by (intros; unfold range; rewrite N', D'; tauto).
  clearbody t'.
  pose proof (pol_un e) as PU.
  pose proof (noval_nopos t lev ex v) as NP.
  split.
  - rewrite N'; apply H.
  - rewrite D'; apply H.
  - rewrite N', D'; apply H.
  - rewrite V'; destruct e; [|apply H].
    rewrite upd1_other; [apply H|]. destruct R; lia.
  - intros v' d'. rewrite Rg, A', L'. intros R'.
    destruct (upd2_cases (ASG t) v d (pol e) v' d') as [(-> & -> & ->)|(Ne & ->)]; [congruence|].
    rewrite upd2_other by auto. apply H; auto.
  - intros v' d'. rewrite Rg, A', L'. intros R'.
    destruct (upd2_cases (ASG t) v d (pol e) v' d') as [(-> & -> & ->)|(Ne & ->)].
    + rewrite upd2_same; lia.
    + rewrite upd2_other by auto. apply H; auto.
  - intros v' d'. rewrite Rg, A', V'. intros R'.
    destruct (upd2_cases (ASG t) v d (pol e) v' d') as [(-> & -> & ->)|(Ne & ->)].
    + destruct e; simpl; [|congruence]. intros _. apply upd1_same.
    + intro P. destruct e.
      * destruct (Z.eq_dec v' v) as [->|Nv].
        -- exfalso. apply (NP d'); auto.
        -- rewrite upd1_other by auto. apply H; auto.
      * apply H; auto.
  - intros v'. rewrite N', A', V'. intros R'. destruct e.
    + destruct (Z.eq_dec v' v) as [->|Nv].
      * rewrite upd1_same. intros _. rewrite Rg, upd2_same. auto.
      * rewrite upd1_other by auto. rewrite Rg, upd2_other by auto. apply H; auto.
    + intro Nv. rewrite Rg. destruct (Z.eq_dec v' v) as [->|Nv']; [congruence|].
      rewrite upd2_other by auto. apply H; auto.
  - intros v' d0 d'. rewrite !Rg, A', L'. intros R0 R1.
    destruct (Z.eq_dec v' v) as [->|Nv].
    + destruct (upd2_cases (ASG t) v d (pol e) v d0) as [(_ & -> & ->)|(Ne & ->)].
      * rewrite upd2_same. intros _ _ [F|F]; [lia|contradiction].
      * intro P. exfalso. apply (NP d0); auto.
    + rewrite !upd2_other by auto. intros P Nd C. apply (tb_neg _ _ _ H v' d0 d'); auto.
      destruct C as [C|C]; auto.
  - intros v' k. rewrite N', D'. intros R' W K P.
    destruct (tb_two _ _ _ H v' k R' W) as (d1 & d2 & N12 & R1 & R2 & O1 & O2).
    + destruct K as [K|[K K']]; auto. right; split; auto.
    + intros d0 R0 P0. destruct (Z.eq_dec v' v) as [->|Nv]; [exfalso; apply (NP d0); auto|].
      specialize (P d0). rewrite Rg, A', L', !upd2_other in P by auto. auto.
    + exists d1, d2. rewrite !Rg. repeat split; try apply R1; try apply R2; auto.
      * unfold openat in *. rewrite A', L'.
        destruct (upd2_cases (ASG t) v d (pol e) v' d1) as [(-> & -> & ->)|(Ne & ->)].
        -- rewrite upd2_same. destruct K as [K|[K K']]; [auto|contradiction].
        -- rewrite upd2_other; auto.
      * unfold openat in *. rewrite A', L'.
        destruct (upd2_cases (ASG t) v d (pol e) v' d2) as [(-> & -> & ->)|(Ne & ->)].
        -- rewrite upd2_same. destruct K as [K|[K K']]; [auto|contradiction].
        -- rewrite upd2_other; auto.
Qed.

Lemma firstT_TD t lev r l ex :
  TB t lev ex -> TD t -> 0 <= lev -> lrange t l -> ASG t (lvar l) (lval l) = Un ->
  TD (firstT t lev r l).
Proof.
  intros H D L0 R U.
  pose proof (firstT_ext t lev r l U) as E.
  set (t' := firstT t lev r l) in *.
  assert (A' : ASG t' = upd2 (ASG t) (lvar l) (lval l) (pol (leq l))) by reflexivity.
  assert (L' : ALEV t' = upd2 (ALEV t) (lvar l) (lval l) lev) by reflexivity.
  assert (I' : AIDX t' = upd2 (AIDX t) (lvar l) (lval l)
                           (Z.of_nat (length (DST t ++ [l])) - 1)) by reflexivity.
  assert (C' : CID t' = upd2 (CID t) (lvar l) (lval l) r) by reflexivity.
  assert (S' : DST t' = DST t ++ [l]) by reflexivity.
  clearbody t'.
  assert (Len : Z.of_nat (length (DST t ++ [l])) - 1 = Z.of_nat (length (DST t))).
  { rewrite app_length; simpl. lia. }
  rewrite Len in I'.
  assert (Llev : llev t' l = lev) by (unfold llev; rewrite L', upd2_same; auto).
  assert (TOP : forall i f, nth_error (DST t) i = Some f -> llev t' f <= lev).
  { intros i f Hf. destruct (td_dst _ D _ _ Hf) as (Rf & Tf & _).
    rewrite (ext_llev t t' f E) by (apply lit_true_un; auto).
    apply (tb_as _ _ _ H); auto. apply lit_true_as; auto. }
  split.
  - intros v d Rv Av. rewrite (ext_range t t') in Rv by auto.
    destruct (upd2_cases (ASG t) (lvar l) (lval l) (pol (leq l)) v d) as [(-> & -> & Ea)|(Ne & Ea)].
    + exists (length (DST t)), l. rewrite S', nth_error_snoc_last.
      rewrite I', upd2_same. unfold llev. repeat split; auto.
      left. rewrite A', upd2_same. rewrite <- (lit_eta l) at 1.
      destruct (leq l); reflexivity.
    + rewrite A', Ea in Av.
      destruct (td_atom _ D v d Rv Av) as (i & f & F1 & F2 & F3 & F4 & F5 & F6).
      destruct (td_dst _ D _ _ F1) as (Rf & Tf & _).
      pose proof (lit_true_as _ _ Tf) as Af.
      exists i, f. rewrite (ext_idx _ _ E) by auto. rewrite (ext_lev _ _ E v d) by auto.
      rewrite (ext_cid _ _ E v d) by auto. rewrite (ext_asg _ _ E v d) by auto.
      rewrite (ext_llev t t' f E) by (apply lit_true_un; auto).
      rewrite F3 in Af.
      rewrite (ext_cid _ _ E v (lval f)) by auto.
      repeat split; auto. apply (ext_nth t t'); auto.
  - intros i f Hf. rewrite S' in Hf. apply nth_error_snoc in Hf. destruct Hf as [[_ Hf]|[-> ->]].
    + destruct (td_dst _ D _ _ Hf) as (Rf & Tf & If). split; [apply (ext_range t t'); auto|split].
      * apply (ext_true t t'); auto.
      * rewrite (ext_lidx t t'); auto. apply lit_true_un; auto.
    + split; [apply (ext_range t t'); auto|split].
      * apply lit_true_asg. rewrite A', upd2_same. reflexivity.
      * unfold lidx. rewrite I', upd2_same; auto.
  - intros i j f g Hf Hg L. rewrite S' in Hf, Hg.
    apply nth_error_snoc in Hf. apply nth_error_snoc in Hg.
    destruct Hg as [[_ Hg]|[-> ->]].
    + destruct Hf as [[_ Hf]|[-> ->]].
      * destruct (td_dst _ D _ _ Hf) as (_ & Tf & _), (td_dst _ D _ _ Hg) as (_ & Tg & _).
        rewrite !(ext_llev t t') by (auto; apply lit_true_un; auto).
        apply (td_mono _ D i j); auto.
      * apply nth_error_lt in Hg. lia.
    + rewrite Llev. destruct Hf as [[_ Hf]|[-> ->]]; [eapply TOP; eauto|lia].
Qed.

(** ** Excluding a value after [v = w] has been assigned *)

Definition negT (t : trail) (lev : Z) (r : reason) (v d : Z) : trail := markT t lev r v d Neg.

Lemma negT_TB t lev r v d ex :
  TB t lev ex -> 0 <= lev -> range t v d -> ASG t v d = Un -> ex v ->
  TB (negT t lev r v d) lev ex.
Proof.
  intros H L0 R U Hxv.
  set (t' := negT t lev r v d).
  assert (A' : ASG t' = upd2 (ASG t) v d Neg) by reflexivity.
  assert (L' : ALEV t' = upd2 (ALEV t) v d lev) by reflexivity.
  assert (V' : VAL t' = VAL t) by reflexivity.
  assert (N' : NV t' = NV t) by reflexivity.
  assert (D' : DOM t' = DOM t) by reflexivity.
  assert (Rg : forall v' d', range t' v' d' <-> range t v' d')
    by (intros; unfold range; rewrite N', D'; tauto).
  clearbody t'.
  split; rewrite ?N', ?D', ?V'; try apply H.
  - intros v' d'. rewrite Rg, A', L'. intros R'.
    destruct (upd2_cases (ASG t) v d Neg v' d') as [(-> & -> & ->)|(Ne & ->)]; [congruence|].
    rewrite upd2_other by auto. apply H; auto.
  - intros v' d'. rewrite Rg, A', L'. intros R'.
    destruct (upd2_cases (ASG t) v d Neg v' d') as [(-> & -> & ->)|(Ne & ->)].
    + rewrite upd2_same; lia.
    + rewrite upd2_other by auto. apply H; auto.
  - intros v' d'. rewrite Rg, A'. intros R'.
    destruct (upd2_cases (ASG t) v d Neg v' d') as [(-> & -> & ->)|(Ne & ->)]; [congruence|].
    apply H; auto.
  - intros v' R' Nv. rewrite Rg, A'.
    destruct (tb_val _ _ _ H v' R' Nv) as (R0 & P0). split; auto.
    destruct (upd2_cases (ASG t) v d Neg v' (VAL t v')) as [(E1 & E2 & ->)|(Ne & ->)]; auto.
    subst v'. congruence.
  - intros v' d0 d'. rewrite !Rg, A', L'. intros R0 R1.
    destruct (upd2_cases (ASG t) v d Neg v' d0) as [(-> & -> & ->)|(Ne & ->)]; [congruence|].
    rewrite upd2_other by auto. intros P Nd C.
    destruct (tb_neg _ _ _ H v' d0 d' R0 R1 P Nd C) as (X1 & X2).
    destruct (upd2_cases (ASG t) v d Neg v' d') as [(-> & -> & ->)|(Ne' & ->)].
    + congruence.
    + rewrite upd2_other by auto. auto.
  - intros v' k R' W K P.
    destruct (tb_two _ _ _ H v' k R' W K) as (d1 & d2 & N12 & R1 & R2 & O1 & O2).
    + intros d0 R0 P0. specialize (P d0). rewrite Rg, A', L' in P.
      destruct (upd2_cases (ASG t) v d Neg v' d0) as [(-> & -> & _)|(Ne & Ea)]; [congruence|].
      rewrite Ea, upd2_other in P by auto. auto.
    + exists d1, d2. rewrite !Rg. repeat split; try apply R1; try apply R2; auto.
      * unfold openat in *. rewrite A', L'.
        destruct (upd2_cases (ASG t) v d Neg v' d1) as [(-> & -> & ->)|(Ne & ->)].
        -- rewrite upd2_same. destruct K as [K|[K K']]; [auto|contradiction].
        -- rewrite upd2_other; auto.
      * unfold openat in *. rewrite A', L'.
        destruct (upd2_cases (ASG t) v d Neg v' d2) as [(-> & -> & ->)|(Ne & ->)].
        -- rewrite upd2_same. destruct K as [K|[K K']]; [auto|contradiction].
        -- rewrite upd2_other; auto.
Qed.

(** What the domain loops know: the stack ends with [v = w], assigned at level [lev] with
    reason [r]. *)
Definition top_is (t : trail) (lev : Z) (r : reason) (v w : Z) : Prop :=
  exists ds, DST t = ds ++ [mkLit v w true] /\ ALEV t v w = lev /\ CID t v w = r /\
             ASG t v w = Pos.

Lemma top_is_ext t t' lev r v w :
  ext t t' -> DST t' = DST t -> top_is t lev r v w -> top_is t' lev r v w.
Proof.
  intros E S (ds & A & B & C & P). exists ds. rewrite S.
  rewrite (ext_lev _ _ E), (ext_cid _ _ E), (ext_asg _ _ E) by congruence. auto.
Qed.

Lemma negT_TD t lev r v d w :
  TD t -> range t v d -> ASG t v d = Un -> top_is t lev r v w -> TD (negT t lev r v d).
Proof.
  intros D R U T.
  assert (E : ext t (negT t lev r v d)) by (apply ext_mark; auto).
  set (t' := negT t lev r v d) in *.
  assert (A' : ASG t' = upd2 (ASG t) v d Neg) by reflexivity.
  assert (L' : ALEV t' = upd2 (ALEV t) v d lev) by reflexivity.
  assert (I' : AIDX t' = upd2 (AIDX t) v d (Z.of_nat (length (DST t)) - 1)) by reflexivity.
  assert (C' : CID t' = upd2 (CID t) v d r) by reflexivity.
  assert (S' : DST t' = DST t) by reflexivity.
  clearbody t'.
  assert (DT : forall i f, nth_error (DST t') i = Some f ->
             lrange t' f /\ lit_true t' f = true /\ lidx t' f = Z.of_nat i).
  { intros i f Hf. rewrite S' in Hf.
    destruct (td_dst _ D _ _ Hf) as (Rf & Tf & If). split; [apply (ext_range t t'); auto|split].
    - apply (ext_true t t'); auto.
    - rewrite (ext_lidx t t'); auto. apply lit_true_un; auto. }
  split; auto.
  - intros v0 d0 Rv Av. rewrite (ext_range t t') in Rv by auto.
    destruct (upd2_cases (ASG t) v d Neg v0 d0) as [(-> & -> & Ea)|(Ne & Ea)].
    + destruct T as (ds & T1 & T2 & T3 & T4).
      exists (length ds), (mkLit v w true). rewrite S', T1, nth_error_snoc_last.
      rewrite I', upd2_same, T1, app_length. simpl.
      assert (Ndw : w <> d) by congruence.
      unfold llev; simpl. rewrite L', C', A', !upd2_same, !upd2_other by auto.
      repeat split; auto; lia.
    + rewrite A', Ea in Av.
      destruct (td_atom _ D v0 d0 Rv Av) as (i & f & F1 & F2 & F3 & F4 & F5 & F6).
      destruct (td_dst _ D _ _ F1) as (Rf & Tf & _).
      pose proof (lit_true_as _ _ Tf) as Af.
      exists i, f. rewrite (ext_idx _ _ E) by auto. rewrite (ext_lev _ _ E v0 d0) by auto.
      rewrite (ext_cid _ _ E v0 d0) by auto. rewrite (ext_asg _ _ E v0 d0) by auto.
      rewrite (ext_llev t t' f E) by (apply lit_true_un; auto).
      rewrite F3 in Af.
      rewrite (ext_cid _ _ E v0 (lval f)) by auto.
      repeat split; auto. apply (ext_nth t t'); auto.
  - intros i j f g Hf Hg L. rewrite S' in Hf, Hg.
    destruct (td_dst _ D _ _ Hf) as (_ & Tf & _), (td_dst _ D _ _ Hg) as (_ & Tg & _).
    rewrite !(ext_llev t t') by (auto; apply lit_true_un; auto).
    apply (td_mono _ D i j); auto.
Qed.

(** ** Ending an exemption *)

Lemma TB_finish_pos t lev (ex ex' : Z -> Prop) v w :
  TB t lev ex -> (forall u, ex u -> u = v \/ ex' u) -> range t v w -> ASG t v w = Pos ->
  ALEV t v w = lev -> (forall d, range t v d -> ASG t v d <> Un) -> TB t lev ex'.
Proof.
  intros H Hx Rw Pw Lw All. split; try apply H.
  - intros u d d' R R' P N C.
    destruct (Z.eq_dec u v) as [->|Nu].
    + pose proof (tb_pos _ _ _ H v d R P) as V1. pose proof (tb_pos _ _ _ H v w Rw Pw) as V2.
      assert (E0 : d = w) by congruence. clear V1. subst d.
      split.
      * destruct (ASG t v d') eqn:E; auto.
        -- exfalso; apply (All d'); auto.
        -- pose proof (tb_pos _ _ _ H v d' R' E). congruence.
      * destruct (ASG t v d') eqn:E; [exfalso; apply (All d'); auto| |];
        assert (0 <= ALEV t v d' <= lev) by (apply (tb_as _ _ _ H); congruence); lia.
    + apply (tb_neg _ _ _ H u d d'); auto. destruct C as [C|C]; auto.
      right. intro X. destruct (Hx u X); auto.
  - intros u k R W K P.
    destruct (Z.eq_dec u v) as [->|Nu].
    + apply (tb_two _ _ _ H v k); auto. destruct K as [K|[K K']]; auto.
      exfalso. specialize (P w Rw Pw). lia.
    + apply (tb_two _ _ _ H u k); auto. destruct K as [K|[K K']]; auto.
      right; split; auto. intro X. destruct (Hx u X); auto.
Qed.

Lemma TB_finish_neg t lev (ex ex' : Z -> Prop) v d1 d2 :
  TB t lev ex -> (forall u, ex u -> u = v \/ ex' u) -> VAL t v = -1 ->
  d1 <> d2 -> range t v d1 -> range t v d2 -> ASG t v d1 = Un -> ASG t v d2 = Un ->
  TB t lev ex'.
Proof.
  intros H Hx Vv Ne R1 R2 U1 U2. split; try apply H.
  - intros u d d' R R' P N C.
    destruct (Z.eq_dec u v) as [->|Nu].
    + exfalso. eapply noval_nopos; eauto.
    + apply (tb_neg _ _ _ H u d d'); auto. destruct C as [C|C]; auto.
      right. intro X. destruct (Hx u X); auto.
  - intros u k R W K P.
    destruct (Z.eq_dec u v) as [->|Nu].
    + exists d1, d2; repeat split; try apply R1; try apply R2; auto; left; auto.
    + apply (tb_two _ _ _ H u k); auto. destruct K as [K|[K K']]; auto.
      right; split; auto. intro X. destruct (Hx u X); auto.
Qed.

(** A variable with at most one value is left to itself. *)
Lemma TB_finish_small t lev (ex ex' : Z -> Prop) v :
  TB t lev ex -> (forall u, ex u -> u = v \/ ex' u) -> VAL t v = -1 -> DOM t v < 2 ->
  TB t lev ex'.
Proof.
  intros H Hx Vv S. split; try apply H.
  - intros u d d' R R' P N C.
    destruct (Z.eq_dec u v) as [->|Nu].
    + exfalso. eapply noval_nopos; eauto.
    + apply (tb_neg _ _ _ H u d d'); auto. destruct C as [C|C]; auto.
      right. intro X. destruct (Hx u X); auto.
  - intros u k R W K P.
    destruct (Z.eq_dec u v) as [->|Nu]; [lia|].
    apply (tb_two _ _ _ H u k); auto. destruct K as [K|[K K']]; auto.
    right; split; auto. intro X. destruct (Hx u X); auto.
Qed.

(** ** Cutting back *)

Lemma cut_range t k t' v d : cut t k t' -> (range t' v d <-> range t v d).
Proof. intro C; unfold range; rewrite (cut_nv _ _ _ C), (cut_dom _ _ _ C); tauto. Qed.

Lemma cut_asg t k t' lev ex v d :
  TB t lev ex -> cut t k t' -> -1 <= k -> range t v d ->
  ASG t' v d <> Un -> ASG t v d <> Un /\ ALEV t v d <= k /\
  ASG t' v d = ASG t v d /\ ALEV t' v d = ALEV t v d /\ CID t' v d = CID t v d.
Proof.
  intros H C K R A.
  destruct (Z.le_gt_cases (ALEV t v d) k) as [L|L].
  - destruct (cut_kept _ _ _ C v d R L) as (E1 & E2 & E3). rewrite <- E1 at 1. auto.
  - destruct (cut_gone _ _ _ C v d R L) as (E1 & E2 & E3). congruence.
Qed.

Lemma cut_true t k t' l : cut t k t' -> lrange t l -> llev t l <= k ->
  lit_true t' l = lit_true t l.
Proof.
  intros C R L. destruct (cut_kept _ _ _ C _ _ R L) as (E & _). unfold lit_true; rewrite E; auto.
Qed.

Lemma cut_false t k t' l : cut t k t' -> lrange t l -> llev t l <= k ->
  lit_false t' l = lit_false t l.
Proof.
  intros C R L. destruct (cut_kept _ _ _ C _ _ R L) as (E & _). unfold lit_false; rewrite E; auto.
Qed.

Lemma cut_un t k t' l : cut t k t' -> lrange t l -> k < llev t l -> lit_un t' l = true.
Proof.
  intros C R L. destruct (cut_gone _ _ _ C _ _ R L) as (E & _). unfold lit_un; rewrite E; auto.
Qed.

Lemma cut_llev t k t' l : cut t k t' -> lrange t l -> llev t l <= k -> llev t' l = llev t l.
Proof. intros C R L. destruct (cut_kept _ _ _ C _ _ R L) as (_ & E & _). auto. Qed.

Lemma cut_lidx t k t' l : cut t k t' -> lidx t' l = lidx t l.
Proof. intros C. apply (cut_idx _ _ _ C). Qed.

Lemma cut_TB t k t' lev ex ex' :
  TB t lev ex -> cut t k t' -> -1 <= k < lev -> TB t' k ex'.
Proof.
  intros H C K.
  assert (Rg : forall v' d', range t' v' d' <-> range t v' d') by (intros; eapply cut_range; eauto).
  split; rewrite ?(cut_nv _ _ _ C), ?(cut_dom _ _ _ C); try apply H.
  - rewrite (cut_val' _ _ _ C 0); [apply H|]. intros d R. destruct R; lia.
  - intros v d R U. apply Rg in R.
    destruct (Z.le_gt_cases (ALEV t v d) k) as [L|L].
    + destruct (cut_kept _ _ _ C v d R L) as (E1 & E2 & E3). rewrite E2. apply H; auto. congruence.
    + apply (cut_gone _ _ _ C v d R L).
  - intros v d R U. apply Rg in R. pose proof (cut_asg t k t' lev ex v d H C) as X.
    destruct X as (X1 & X2 & X3 & X4 & _); auto; try lia. rewrite X4.
    pose proof (tb_as _ _ _ H v d R X1). lia.
  - intros v d R P. apply Rg in R. pose proof (cut_asg t k t' lev ex v d H C) as X.
    destruct X as (X1 & X2 & X3 & X4 & _); auto; try lia; try congruence.
    rewrite P in X3. symmetry in X3. pose proof (tb_pos _ _ _ H v d R X3) as Vd.
    rewrite (cut_val' _ _ _ C v); auto.
    intros d' R'. destruct (Z.eq_dec d' d) as [->|Nd]; auto.
    destruct (tb_neg _ _ _ H v d d' R R' X3 Nd) as (Y1 & Y2); try lia.
  - intros v R Nv.
    assert (D : (exists d, range t v d /\ k < ALEV t v d) \/ (forall d, range t v d -> ALEV t v d <= k)).
    { assert (DD : forall n, (exists d, 0 <= d < Z.of_nat n /\ k < ALEV t v d) \/
                             (forall d, 0 <= d < Z.of_nat n -> ALEV t v d <= k)).
      { induction n as [|n IH].
        - right; intros; lia.
        - destruct IH as [(d & Hd & Hk)|IH]; [left; exists d; split; auto; lia|].
          destruct (Z.le_gt_cases (ALEV t v (Z.of_nat n)) k).
          + right. intros d Hd. destruct (Z.eq_dec d (Z.of_nat n)); [subst; auto|apply IH; lia].
          + left. exists (Z.of_nat n); split; auto; lia. }
      destruct (DD (Z.to_nat (DOM t v))) as [(d & Hd & Hk)|DD'].
      - left. exists d. unfold range. split; auto. lia.
      - right. intros d (_ & Rd). apply DD'. lia. }
    destruct D as [D|D]; [rewrite (cut_val _ _ _ C v D) in Nv; congruence|].
    rewrite (cut_val' _ _ _ C v D) in *. rewrite Rg.
    destruct (tb_val _ _ _ H v R Nv) as (R0 & P0). split; auto.
    rewrite (proj1 (cut_kept _ _ _ C v _ R0 (D _ R0))); auto.
  - intros v d d' R R' P Nd _. apply Rg in R. apply Rg in R'.
    pose proof (cut_asg t k t' lev ex v d H C) as X.
    destruct X as (X1 & X2 & X3 & X4 & _); auto; try lia; try congruence.
    rewrite P in X3. symmetry in X3.
    destruct (tb_neg _ _ _ H v d d' R R' X3 Nd) as (Y1 & Y2); try lia.
    destruct (cut_kept _ _ _ C v d' R') as (E1 & E2 & E3); [lia|].
    rewrite E1, E2, X4. auto.
  - intros v j R W J P.
    assert (J' : j <= k) by (destruct J as [J|[J _]]; lia).
    destruct (tb_two _ _ _ H v j R W) as (d1 & d2 & N12 & R1 & R2 & O1 & O2).
    + left; lia.
    + intros d Rd Pd. destruct (Z.le_gt_cases (ALEV t v d) k) as [L|L]; [|lia].
      destruct (cut_kept _ _ _ C v d Rd L) as (E1 & E2 & E3).
      rewrite <- E2. apply P; [apply Rg; auto|congruence].
    + assert (OO : forall d, range t v d -> openat t j v d -> openat t' j v d).
      { intros d Rd O. destruct (Z.le_gt_cases (ALEV t v d) k) as [L|L].
        - destruct (cut_kept _ _ _ C v d Rd L) as (E1 & E2 & E3). unfold openat.
          rewrite E1, E2. auto.
        - left. apply (cut_gone _ _ _ C v d Rd L). }
      exists d1, d2. rewrite !Rg. repeat split; try apply R1; try apply R2; auto.
Qed.

Lemma filter_mono_firstn {A} (g : A -> Z) k l :
  (forall i j x y, nth_error l i = Some x -> nth_error l j = Some y -> (i <= j)%nat -> g x <= g y) ->
  exists m, filter (fun x => g x <=? k) l = firstn m l.
Proof.
  induction l as [|x l IH]; intro M; [exists O; auto|]. simpl.
  destruct (g x <=? k) eqn:E.
  - destruct IH as (m & IH).
    + intros i j a b Ha Hb L. apply (M (S i) (S j)); simpl; auto. lia.
    + exists (S m). simpl. rewrite IH; auto.
  - exists O. simpl. apply Z.leb_gt in E.
    assert (AA : forall y, In y l -> (g y <=? k) = false).
    { intros y Hy. apply In_nth_error in Hy. destruct Hy as (j & Hj).
      apply Z.leb_gt. specialize (M O (S j) x y eq_refl Hj). lia. }
    clear M IH. induction l as [|y l IH']; auto. simpl.
    rewrite (AA y) by (left; auto). apply IH'. intros; apply AA; right; auto.
Qed.

Lemma nth_error_firstn_some {A} m (l : list A) i x :
  nth_error (firstn m l) i = Some x -> nth_error l i = Some x.
Proof.
  revert m i; induction l as [|y l IH]; intros [|m] [|i]; simpl; auto; try discriminate. apply IH.
Qed.

(** The stack that remains is a prefix. *)
Lemma cut_nth t k t' i f : TD t -> cut t k t' ->
  (nth_error (DST t') i = Some f <-> nth_error (DST t) i = Some f /\ llev t f <= k).
Proof.
  intros D C. destruct (filter_mono_firstn (llev t) k (DST t)) as (m & Hm).
  { intros; eapply (td_mono _ D); eauto. }
  rewrite (cut_dst _ _ _ C). split.
  - intro H. split.
    + rewrite Hm in H. eapply nth_error_firstn_some; eauto.
    + apply nth_error_In in H. apply filter_In in H. destruct H as (_ & H). apply Z.leb_le; auto.
  - intros (H & L).
    assert (I : In f (filter (fun l => llev t l <=? k) (DST t))).
    { apply filter_In. split; [eapply nth_error_In; eauto|]. apply Z.leb_le; auto. }
    apply In_nth_error in I. destruct I as (j & Hj).
    assert (j = i).
    { rewrite Hm in Hj. apply nth_error_firstn_some in Hj.
      destruct (td_dst _ D _ _ Hj) as (_ & _ & I1), (td_dst _ D _ _ H) as (_ & _ & I2). lia. }
    subst; auto.
Qed.

Lemma cut_TD t k t' lev ex :
  TB t lev ex -> TD t -> cut t k t' -> -1 <= k -> TD t'.
Proof.
  intros H D C K. split.
  - intros v d R A. rewrite (cut_range t k t') in R by auto.
    destruct (cut_asg t k t' lev ex v d H C K R A) as (X1 & X2 & X3 & X4 & X5).
    destruct (td_atom _ D v d R X1) as (i & f & F1 & F2 & F3 & F4 & F5 & F6).
    destruct (td_dst _ D _ _ F1) as (Rf & Tf & _).
    assert (Lf : llev t f <= k) by lia.
    exists i, f. rewrite (cut_nth t k t') by auto.
    rewrite (cut_idx _ _ _ C), X3, X4, X5, (cut_llev t k t' f) by auto.
    destruct (cut_kept _ _ _ C _ _ Rf Lf) as (_ & _ & E3). rewrite F3 in E3. rewrite E3.
    repeat split; auto.
  - intros i f Hf. apply (cut_nth t k t') in Hf; auto. destruct Hf as (Hf & Lf).
    destruct (td_dst _ D _ _ Hf) as (Rf & Tf & If).
    split; [apply (cut_range t k t'); auto|]. rewrite (cut_true t k t'), (cut_lidx t k t'); auto.
  - intros i j f g Hf Hg L. apply (cut_nth t k t') in Hf; auto. apply (cut_nth t k t') in Hg; auto.
    destruct Hf as (Hf & Lf), Hg as (Hg & Lg).
    destruct (td_dst _ D _ _ Hf) as (Rf & Tf & If), (td_dst _ D _ _ Hg) as (Rg & Tg & Ig).
    rewrite !(cut_llev t k t'); auto. apply (td_mono _ D i j); auto.
Qed.

(** An assigned atom with a smaller index has a level that is not larger. *)
Lemma idx_lev t v d i f :
  TD t -> range t v d -> ASG t v d <> Un -> nth_error (DST t) i = Some f ->
  AIDX t v d <= Z.of_nat i -> ALEV t v d <= llev t f.
Proof.
  intros D R A Hf L. destruct (td_atom _ D v d R A) as (j & g & G1 & G2 & G3 & G4 & _).
  rewrite <- G4. apply (td_mono _ D j i); auto. lia.
Qed.

Definition cls_ok (t : trail) (cls : list clause) : Prop :=
  forall c l, In c cls -> In l c -> lrange t l.

Lemma cut_TR t k t' lev ex cls :
  TB t lev ex -> TD t -> TR t cls -> cls_ok t cls -> cut t k t' -> -1 <= k -> TR t' cls.
Proof.
  intros H D TRt W C K i f Hf. apply (cut_nth t k t') in Hf; auto. destruct Hf as (Hf & Lf).
  specialize (TRt i f Hf). unfold reason_ok in *.
  destruct (td_dst _ D _ _ Hf) as (Rf & Tf & If).
  destruct (cut_kept _ _ _ C _ _ Rf Lf) as (_ & _ & E3). rewrite E3.
  rewrite (cut_llev t k t' f) by auto.
  destruct (CID t (lvar f) (lval f)) as [| |n|]; auto.
  - destruct TRt as (T1 & T2). split; auto. intros j g Hj Hg.
    apply (cut_nth t k t') in Hg; auto. destruct Hg as (Hg & Lg).
    rewrite (cut_llev t k t') by (auto; apply (td_dst _ D _ _ Hg)). eauto.
  - destruct TRt as (T1 & T2 & d & Rd & Nd & Ld). split; auto. split.
    + intros d0 R0 N0. apply (cut_range t k t') in R0; auto.
      destruct (T2 d0 R0 N0) as (A0 & I0).
      assert (L0 : ALEV t (lvar f) d0 <= llev t f).
      { eapply idx_lev; eauto; try congruence; try lia. }
      destruct (cut_kept _ _ _ C _ d0 R0) as (E1 & _); [lia|].
      rewrite E1, (cut_idx _ _ _ C). auto.
    + exists d. split; [apply (cut_range t k t'); auto|]. split; auto.
      destruct (cut_kept _ _ _ C _ d Rd) as (_ & E2 & _); [lia|]. rewrite E2. auto.
  - destruct TRt as (R & HR & HfR & T1 & T2). exists R. repeat split; auto.
    + destruct (T1 r H0 H1) as (Fr & Ir).
      assert (Rr : lrange t r) by (eapply W; eauto; eapply nth_error_In; eauto).
      assert (Lr : llev t r <= llev t f).
      { eapply idx_lev; eauto; [apply lit_false_as; auto|unfold lidx in Ir; lia]. }
      rewrite (cut_false t k t'); auto; lia.
    + rewrite (cut_lidx t k t') by auto. apply T1; auto.
    + intro Lp. destruct (T2 Lp) as (r & Hr1 & Hr2 & Hr3). exists r; repeat split; auto.
      rewrite (cut_llev t k t'); auto; try lia.
      eapply W; eauto; eapply nth_error_In; eauto.
Qed.
