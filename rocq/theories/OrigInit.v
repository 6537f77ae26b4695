(** * The state the first version builds from a well-formed problem *)

From Verif Require Import Spec WideSpec Outcome State ModelCounter ModelHeur ModelLearn ModelWatch
  ModelSearch ModelBuild ModelOrig
  Base Trail Reduce Counter CounterUndo Propagate Choose Scores Init Chrono OrigSim OrigProp OrigChrono.

(** Everything but the common part is as at the start. *)
Definition rawo (e : entptr) (o : orig) : Prop :=
  oval o = oval (o_init e) /\ osat o = osat (o_init e) /\ ovlev o = ovlev (o_init e) /\
  ocsat o = ocsat (o_init e) /\ optr o = e /\ omsg o = false.

Record obuilt (e : entptr) (t : trail) (cs : list clause) (o : orig) : Prop := mkOb {
  ob_raw : rawo e o;
  ob_tr : tr (ost o) = t;
  ob_cl : cl (ost o) = cs;
  ob_num : forall n k, nth_error cs n = Some k -> num (ost o) n = Z.of_nat (length k);
  ob_clev : clev (ost o) = clev (ost (o_init e));
  ob_rec : forall n k l, nth_error cs n = Some k -> nocc n (rec (ost o) l) = occ l k;
  ob_recid : forall l n, In n (rec (ost o) l) -> (n < length cs)%nat;
  ob_cnt : forall l, cnt (ost o) l = Z.of_nat (occs l cs);
  ob_misc : wls (ost o) = (fun _ => []) /\ w1 (ost o) = (fun _ => nolit) /\ vs (ost o) = vs init_state /\
    level (ost o) = 0 /\ uclause (ost o) = RDec /\ conflict (ost o) = false /\ backtracks (ost o) = 0 /\
    decisions (ost o) = 0 /\ units (ost o) = 0 /\ entails (ost o) = 0 /\ restarts (ost o) = 0 /\
    tick (ost o) = 0%nat
}.

Definition otrail (p : problem) (t : trail) : Prop :=
  NV t = nvars p /\ (forall v, DOM t v = domsize p v) /\
  ASG t = (fun _ _ => Un) /\ ALEV t = (fun _ _ => -1) /\ DST t = [] /\ CID t = (fun _ _ => RDec).

Lemma o_build_doms e ds :
  (forall d, In d ds -> 0 <= d) ->
  exists t, foldM o_add_item (map IDom ds) (o_init e) = Ok (on (o_init e) (set_tr (ost (o_init e)) t)) /\
    NV t = Z.of_nat (length ds) /\ (forall v, DOM t v = domsize (mkProblem ds []) v) /\
    ASG t = (fun _ _ => Un) /\ ALEV t = (fun _ _ => -1) /\ DST t = [] /\ CID t = (fun _ _ => RDec).
Proof.
  induction ds as [|d ds IH] using rev_ind; intro P.
  - exists (tr (ost (o_init e))). split; [reflexivity|]. split; [reflexivity|]. split; [|repeat split].
    intro v. unfold domsize. simpl. destruct (1 <=? v); auto. destruct (Z.to_nat (v - 1)); auto.
  - destruct IH as (t & E & Nv & Dm & Q). { intros; apply P; apply in_or_app; auto. }
    rewrite map_app, foldM_app, E. cbn [bind map foldM o_add_item]. unfold add_domain.
    assert (0 <= d) by (apply P; apply in_or_app; right; left; auto).
    destruct (Z.ltb_spec d 0); [lia|]. cbn [bind].
    eexists. split; [reflexivity|]. simpl. split; [rewrite Nv, app_length; simpl; lia|].
    split; [|auto]. intro v. rewrite domsize_snoc, Nv.
    destruct (Z.eqb_spec v (Z.of_nat (length ds) + 1)) as [->|Ne].
    + apply upd1_same.
    + rewrite upd1_other; auto.
Qed.

Lemma o_add_lits n ls o :
  DOM (tr (ost o)) 0 = 0 -> (forall l, In l ls -> lrange (tr (ost o)) l) ->
  exists z r, foldM (o_add_lit n) ls o = Ok (on o (set_rec (set_cnt (ost o) z) r)) /\
    (forall l, z l = cnt (ost o) l + Z.of_nat (occ l ls)) /\
    (forall m l, nocc m (r l) = (nocc m (rec (ost o) l) + if Nat.eqb m n then occ l ls else 0)%nat) /\
    (forall m l, In m (r l) -> In m (rec (ost o) l) \/ m = n).
Proof.
  intros D0 Rg.
  destruct (foldM_ind (o_add_lit n) (fun pre o' => exists z r,
    o' = on o (set_rec (set_cnt (ost o) z) r) /\
    (forall l, z l = cnt (ost o) l + Z.of_nat (occ l pre)) /\
    (forall m l, nocc m (r l) = (nocc m (rec (ost o) l) + if Nat.eqb m n then occ l pre else 0)%nat) /\
    (forall m l, In m (r l) -> In m (rec (ost o) l) \/ m = n)) ls o)
    as (o' & E & z & r & -> & P).
  - exists (cnt (ost o)), (rec (ost o)). split; [destruct o as [[] ? ? ? ? ? ?]; reflexivity|].
    split; [intros; unfold occ, countb; simpl; lia|]. split; auto.
    intros m l. destruct (Nat.eqb m n); unfold occ, countb; simpl; lia.
  - intros pre l suf o' El (z & r & -> & P2 & P3 & P4).
    assert (Hl : In l ls) by (rewrite El; apply in_or_app; right; left; auto).
    assert (OS : forall x, occ x (pre ++ [l]) = (occ x pre + if lit_eqb x l then 1 else 0)%nat).
    { intro x. unfold occ. rewrite countb_app. unfold countb at 2; simpl. destruct (lit_eqb x l); simpl; lia. }
    unfold o_add_lit. cbn [ost on tr set_rec set_cnt]. rewrite chk_ok by auto. cbn [bind].
    eexists. split; [reflexivity|]. eexists _, _. split; [reflexivity|]. simpl. split; [|split].
    + intro x. rewrite OS. unfold updl. destruct (lit_eqb_spec x l) as [->|]; rewrite P2; lia.
    + intros m x. unfold updl. rewrite OS. destruct (lit_eqb_spec x l) as [->|].
      * rewrite nocc_cons, P3. destruct (Nat.eqb m n); lia.
      * rewrite P3. destruct (Nat.eqb m n); lia.
    + intros m x. unfold updl. destruct (lit_eqb_spec x l) as [->|]; auto. intros [<-|I]; auto.
  - exists z, r. auto.
Qed.

Lemma o_build_ok e p : usable p ->
  exists t o, o_build e (items_of p) = Ok o /\ otrail p t /\ obuilt e t (clauses p) o.
Proof.
  intros (W1 & W2). unfold o_build, items_of. rewrite foldM_app.
  destruct (o_build_doms e (doms p) W1) as (t & E & P). rewrite E. cbn [bind].
  assert (ST : otrail p t) by (destruct P as (P1 & P2 & P3); split; auto).
  assert (D0 : DOM t 0 = 0) by (destruct ST as (_ & D & _); rewrite D; reflexivity).
  exists t.
  assert (G : forall cs, (forall k, In k cs -> k <> [] /\ forall l, In l k -> wf_lit p l) ->
     exists o, foldM o_add_item (map ICls cs) (on (o_init e) (set_tr (ost (o_init e)) t)) = Ok o /\
       obuilt e t cs o).
  { induction cs as [|k cs IH] using rev_ind; intro W.
    - eexists. split; [reflexivity|]. split; simpl; auto.
      + repeat split.
      + intros [|n] k; discriminate.
      + intros [|n] k l; discriminate.
      + intros l n [].
      + repeat split.
    - destruct IH as (o & Es & B). { intros; apply W; apply in_or_app; auto. }
      rewrite map_app, foldM_app.
      match goal with |- context [bind ?x _] => replace x with (Ok o) by (symmetry; exact Es) end.
      cbn [bind map foldM o_add_item].
      destruct (W k) as (Nk & Wk); [apply in_or_app; right; left; auto|].
      destruct B as [b0 b1 b2 b3 b4 b5 b6 b7 b8].
      destruct (o_add_lits (length (cl (ost o))) k o) as (z & r & El & P2 & P3 & P4).
      { rewrite b1; auto. }
      { intros l Hl. destruct (Wk l Hl) as (Q1 & Q2). rewrite b1. destruct ST as (N & D & _).
        split; [rewrite N|rewrite D]; auto. }
      rewrite El. cbn [bind]. eexists. split; [reflexivity|].
      rewrite b2 in *. split; auto; simpl.
      + rewrite b2. auto.
      + intros m k0 Hm. apply nth_snoc_cases in Hm. destruct Hm as [(Lm & Hm)|(-> & ->)].
        * rewrite updn_other by lia. auto.
        * apply updn_same.
      + intros m k0 l Hm. rewrite P3. apply nth_snoc_cases in Hm. destruct Hm as [(Lm & Hm)|(-> & ->)].
        * rewrite (b5 m k0 l Hm). match goal with |- context [Nat.eqb m ?x] => destruct (Nat.eqb_spec m x) as [Em|_] end; [|apply Nat.add_0_r]. exfalso. subst m. exact (Nat.lt_irrefl _ Lm).
        * rewrite Nat.eqb_refl, nocc_out; auto. intros m' Hm'. apply (b6 l m' Hm').
      + intros l m I. rewrite app_length; simpl. unfold clause in *. apply P4 in I.
        destruct I as [I| ->]; [apply b6 in I; lia|lia].
      + intro l. rewrite P2, b7, occs_snoc. lia. }
  destruct (G (clauses p) W2) as (o & Es & B). exists o. auto.
Qed.

(** The state that goes with it. *)
Definition ghost (o : orig) : state :=
  let t := tr (ost o) in
  set_tr (ost o) (mkTrail (NV t) (DOM t) (VAL init_trail) (ASG init_trail) (ALEV init_trail)
                    (AIDX init_trail) (CID init_trail) []).

Lemma start_R e p t o : usable p -> otrail p t -> obuilt e t (clauses p) o ->
  let o1 := o_check_unit o in
  R o1 (ghost o1) /\ CS (ghost o1) /\ level (ghost o1) = 0 /\ start_trail p (tr (ghost o1)) /\
  cl (ghost o1) = clauses p /\ conflict (ghost o1) = false /\ tick (ghost o1) = 0%nat /\
  optr o1 = e /\ omsg o1 = false /\ decisions (ost o1) = 0 /\
  (forall n, In n (ulist (ghost o1)) <-> exists k, nth_error (clauses p) n = Some k /\ length k = 1%nat).
Proof.
  intros U (N & D & A & L & S & _) B o1. destruct B as [b0 b1 b2 b3 b4 b5 b6 b7 b8].
  destruct b0 as (v1 & v2 & v3 & v4 & v5 & v6).
  destruct b8 as (m1 & m2 & m3 & m4 & m5 & m6 & m7 & m8 & m9 & m10 & m11 & m12).
  assert (ST : start_trail p (tr (ghost o1))).
  { split; [simpl; rewrite b1; auto|]. split; [simpl; rewrite b1; auto|]. repeat split. }
  assert (UL : forall n, In n (ulist (ghost o1)) <-> exists k, nth_error (clauses p) n = Some k /\ length k = 1%nat).
  { intro n. simpl. rewrite filter_In, in_seq, v4, b2. simpl. rewrite andb_true_r. split.
    - intros (I & E). destruct (nth_error (clauses p) n) as [k|] eqn:Ek.
      + exists k. split; auto. rewrite (b3 n k Ek) in E. lia.
      + apply nth_error_None in Ek. lia.
    - intros (k & Ek & E). split; [apply nth_error_lt in Ek; lia|]. rewrite (b3 n k Ek), E. auto. }
  assert (BU : built cL (tr (ghost o1)) (clauses p) (ghost o1)).
  { split; auto.
    - intro n. simpl. rewrite b4. auto.
    - intro X; discriminate X.
    - intros l n. simpl. rewrite m1. intros [].
    - intros n _. simpl. rewrite m2. auto.
    - intro l. unfold ghost, o1, o_check_unit. cbn [vs set_tr on ost set_ulist]. rewrite m3. exact I.
    - simpl. repeat (split; [assumption|]). assumption. }
  assert (H : CS (ghost o1)) by exact (start_CS cL p _ _ U eq_refl ST BU).
  split.
  { split; [split|split].
    - split; auto; simpl; auto. intro n. rewrite v4, b4. reflexivity.
    - split; simpl; rewrite b1; [rewrite A; auto|]. intros v d. rewrite L. auto.
    - simpl. rewrite b1. auto.
    - intros v Hv. right. simpl. rewrite v1, v2, v3. simpl.
      split; [apply Z.eqb_neq; simpl in Hv; lia|]. split; auto. split; auto. intros; discriminate. }
  split; [exact H|]. split; [exact m4|]. split; [exact ST|]. split; [exact b2|]. split; [exact m6|]. split; [exact m12|].
  split; [exact v5|]. split; [exact v6|]. split; [exact m8|exact UL].
Qed.
