(** * The first version of the solver follows the counter-based search of src

    The state of the first version is related to a state of the counter-based solver of src
    that treats the same clauses. *)

From Verif Require Import Spec Outcome State ModelCounter ModelSearch ModelBuild ModelOrig
  Base Trail Reduce Counter CounterUndo Propagate.

(** Two loops over the same list. *)
Lemma fold_sim {A B C} (f : B -> A -> outcome B) (g : C -> A -> outcome C) (R : B -> C -> Prop) l :
  (forall x b c c', In x l -> R b c -> g c x = Ok c' -> exists b', f b x = Ok b' /\ R b' c') ->
  forall b c c', R b c -> foldM g l c = Ok c' -> exists b', foldM f l b = Ok b' /\ R b' c'.
Proof.
  induction l as [|x l IH]; intros H b c c' Rb E; simpl in *.
  - inversion E; subst. eauto.
  - apply bind_ok in E. destruct E as (c1 & E1 & E2).
    destruct (H x b c c1) as (b1 & F1 & R1); auto. rewrite F1. simpl.
    eapply IH; eauto.
Qed.

(** The heuristic of the related state makes no use of counters. *)
Definition cL : cfg := mkCfg Lazy false true.

(** The clause part. *)
Record Rc (o : orig) (s : state) : Prop := mkRc {
  rc_nv : NV (tr (ost o)) = NV (tr s);
  rc_dom : DOM (tr (ost o)) = DOM (tr s);
  rc_cl : cl (ost o) = cl s;
  rc_rec : rec (ost o) = rec s;
  rc_level : level (ost o) = level s;
  rc_ulist : ulist (ost o) = ulist s;
  rc_conflict : conflict (ost o) = conflict s;
  rc_confcl : confcl (ost o) = confcl s;
  rc_tick : tick (ost o) = tick s;
  rc_num : forall n, num (ost o) n = num s n;
  rc_clev : forall n, clev (ost o) n = clev s n;
  rc_sat : forall n, ocsat o n = negb (clev s n =? -1)
}.

(** What the clause updates leave alone. *)
Record keeps (o o' : orig) : Prop := mkKeeps {
  kp_tr : tr (ost o') = tr (ost o);
  kp_ucl : uclause (ost o') = uclause (ost o);
  kp_dec : decisions (ost o') = decisions (ost o);
  kp_units : units (ost o') = units (ost o);
  kp_val : oval o' = oval o;
  kp_vsat : osat o' = osat o;
  kp_vlev : ovlev o' = ovlev o;
  kp_ptr : optr o' = optr o;
  kp_msg : omsg o' = omsg o
}.

Lemma keeps_refl o : keeps o o.
Proof. split; auto. Qed.
Lemma keeps_trans o1 o2 o3 : keeps o1 o2 -> keeps o2 o3 -> keeps o1 o3.
Proof. intros [] []; split; congruence. Qed.

Lemma chk_same t t' l : NV t' = NV t -> DOM t' = DOM t -> chk t' l = chk t l.
Proof. intros E1 E2. unfold chk, lit_ok, in_range. rewrite E1, E2. auto. Qed.

Lemma updn_eq {A} (f g : nat -> A) n a b m :
  (forall k, f k = g k) -> a = b -> updn f n a m = updn g n b m.
Proof. intros H ->. unfold updn. destruct (Nat.eqb m n); auto. Qed.

(** ** satisfyClauses *)

Lemma o_dec_fold n cls s :
  (forall l, In l cls -> chk (tr s) l = Ok tt) ->
  exists x z, foldM (o_dec n) cls s = Ok (set_cnt (set_num s x) z) /\
    x n = num s n - Z.of_nat (countb (lit_un (tr s)) cls) /\
    forall m, m <> n -> x m = num s m.
Proof.
  intro H.
  destruct (foldM_ind (o_dec n) (fun pre s' => exists x z, s' = set_cnt (set_num s x) z /\
     x n = num s n - Z.of_nat (countb (lit_un (tr s)) pre) /\
     forall m, m <> n -> x m = num s m) cls s) as (s' & E & x & z & -> & P).
  - exists (num s), (cnt s). split; [destruct s; reflexivity|]. split; auto. simpl. lia.
  - intros pre l suf s' Ec (x & z & -> & P1 & P2). unfold o_dec. cbn [tr set_cnt set_num].
    rewrite H by (rewrite Ec; apply in_or_app; right; left; auto). cbn [bind].
    eexists. split; [reflexivity|]. rewrite countb_app. unfold countb at 2. simpl.
    destruct (lit_un (tr s) l); simpl.
    + exists (updn x n (x n - 1)), (updl z l (z l - 1)). split; [reflexivity|].
      rewrite updn_same. split; [lia|]. intros m Hm. rewrite updn_other; auto.
    + exists x, z. split; [reflexivity|]. split; [lia|auto].
  - eauto.
Qed.

(** The numbers of unassigned occurrences, with respect to a trail [t]. *)
Definition counts (t : trail) (s : state) : Prop :=
  forall n c, nth_error (cl s) n = Some c -> clev s n = -1 ->
    num s n = Z.of_nat (countb (lit_un t) c).

Lemma satisfy_sim o s l s' :
  Rc o s -> counts (tr (ost o)) s -> cls_ok (tr s) (cl s) -> DOM (tr s) 0 = 0 -> 0 <= level s ->
  satisfy_clauses cL s l = Ok s' ->
  exists o', o_satisfy o l = Ok o' /\ Rc o' s' /\ keeps o o'.
Proof.
  intros HR HN W D0 L E. unfold satisfy_clauses in E. unfold o_satisfy.
  rewrite (chk_same (tr s)) by apply HR. destruct (chk (tr s) l) as [[]| |]; try discriminate.
  cbn [bind] in *. rewrite (rc_rec _ _ HR).
  destruct (fold_sim o_sat_step (satisfy_step cL)
    (fun b c => Rc b c /\ keeps o b /\ counts (tr (ost o)) c /\ tr c = tr s /\ cl c = cl s /\
       level c = level s) (rec s l)) with (b := o) (c := s) (c' := s') as (o' & E' & R' & K' & _); auto.
  2: { split; auto. split; [apply keeps_refl|]. auto. }
  2: { exists o'. auto. }
  intros n b c c' Hn (R1 & K1 & N1 & T1 & C1 & L1) Ec.
  unfold satisfy_step in Ec. apply bind_ok in Ec. destruct Ec as (cls & Eg & Ec).
  unfold o_sat_step. unfold getcl in *. rewrite (rc_cl _ _ R1).
  destruct (nth_error (cl c) n) as [cls'|] eqn:Hc; [|discriminate]. injection Eg as <-. cbn [bind].
  rewrite (rc_sat _ _ R1 n). destruct (clev c n =? -1) eqn:Cn.
  2: { injection Ec as <-. exists b. cbn [negb]. auto 10. }
  change (is_bk cL) with false in Ec. cbn [negb]. injection Ec as <-.
  set (s1 := set_clev (ost (set_ocsat b (updn (ocsat b) n true)))
               (updn (clev (ost (set_ocsat b (updn (ocsat b) n true)))) n
                  (level (ost (set_ocsat b (updn (ocsat b) n true)))))).
  destruct (o_dec_fold n cls' s1) as (x & z & Ed & X1 & X2).
  { intros w Hw. cbn [s1 tr set_clev set_ocsat ost]. rewrite (kp_tr _ _ K1).
    rewrite (chk_same (tr s)) by apply HR. apply chk_ok; auto. apply (W cls'); auto.
    rewrite <- C1. eapply nth_error_In; eauto. }
  rewrite Ed. cbn [bind]. eexists. split; [reflexivity|].
  apply Z.eqb_eq in Cn.
  change (tr s1) with (tr (ost b)) in X1. change (num s1) with (num (ost b)) in X1, X2.
  rewrite (kp_tr _ _ K1) in X1.
  assert (X0 : x n = 0).
  { rewrite X1, (rc_num _ _ R1), (N1 n cls' Hc Cn). lia. }
  split; [|split; [|split]].
  - destruct R1. split; simpl; auto.
    + intro m. destruct (Nat.eq_dec m n) as [->|Nm]; [rewrite updn_same; auto|].
      rewrite updn_other, X2; auto.
    + intro m. apply updn_eq; auto.
    + intro m. destruct (Nat.eq_dec m n) as [->|Nm].
      * rewrite !updn_same. destruct (Z.eqb_spec (level c) (-1)); auto. lia.
      * rewrite !updn_other; auto.
  - destruct K1. split; simpl; auto.
  - intros m k Hm Cm. simpl in *. destruct (Nat.eq_dec m n) as [->|Nm].
    + rewrite updn_same in Cm. lia.
    + rewrite updn_other in Cm |- *; auto.
  - simpl. auto.
Qed.

(** ** removeLiteral *)

Lemma remove_sim o s l s' :
  Rc o s -> remove_literal s l = Ok s' ->
  exists o', o_remove o l = Ok o' /\ Rc o' s' /\ keeps o o'.
Proof.
  intros HR E. unfold remove_literal in E. unfold o_remove.
  rewrite (chk_same (tr s)) by apply HR. destruct (chk (tr s) l) as [[]| |]; try discriminate.
  cbn [bind] in *. rewrite (rc_rec _ _ HR).
  destruct (fold_sim (o_remove_step l) remove_step (fun b c => Rc b c /\ keeps o b) (rec s l))
    with (b := o) (c := s) (c' := s') as (o' & E' & R' & K'); auto.
  2: { split; auto. apply keeps_refl. }
  2: { exists o'. auto. }
  intros n b c c' Hn (R1 & K1) Ec.
  unfold remove_step in Ec. apply bind_ok in Ec. destruct Ec as (cls & Eg & Ec).
  unfold o_remove_step. unfold getcl in *. rewrite (rc_cl _ _ R1).
  destruct (nth_error (cl c) n) as [cls'|] eqn:Hc; [|discriminate]. cbn [bind].
  rewrite (rc_sat _ _ R1 n). destruct (clev c n =? -1) eqn:Cn; cbn [negb].
  2: { injection Ec as <-. exists b. auto. }
  cbv zeta in *. rewrite (rc_num _ _ R1 n).
  eexists. split; [reflexivity|]. injection Ec as <-.
  assert (UP : forall m, updn (num (ost b)) n (num c n - 1) m = updn (num c) n (num c n - 1) m).
  { intro m. apply updn_eq; auto. apply R1. }
  pose proof (rc_ulist _ _ R1) as UL.
  split.
  - destruct R1. destruct (num c n - 1 =? 1), (num c n - 1 =? 0); split; simpl; auto; congruence.
  - destruct K1. destruct (num c n - 1 =? 1), (num c n - 1 =? 0); split; simpl; auto.
Qed.

(** ** Assigning one atom *)

(** The atoms. *)
Record Rt (t t' : trail) : Prop := mkRt {
  rt_asg : ASG t = ASG t';
  rt_lev : forall v d, ALEV t v d = match ASG t' v d with Un => -1 | _ => ALEV t' v d end
}.

Definition Rm (o : orig) (s : state) : Prop := Rc o s /\ Rt (tr (ost o)) (tr s).

(** The ghost state between two assignments. *)
Record K (xs : list nat) (s : state) : Prop := mkK {
  k_JC : JC xs s;
  k_b : bounded s;
  k_lev : 0 <= level s;
  k_d0 : DOM (tr s) 0 = 0;
  k_dst : (1 <= length (DST (tr s)))%nat
}.

Lemma counts_ci t s : CI s -> ASG t = ASG (tr s) -> counts t s.
Proof.
  intros H E n c Hn Cn. destruct (H n c Hn) as [(_ & _ & ->)|(X & _)]; [|lia].
  f_equal. apply countb_ext. intros l _. unfold lit_un. rewrite E. auto.
Qed.

(** What assigning an atom leaves alone. *)
Record keepa (o o' : orig) : Prop := mkKeepa {
  ka_dst : DST (tr (ost o')) = DST (tr (ost o));
  ka_ucl : uclause (ost o') = uclause (ost o);
  ka_dec : decisions (ost o') = decisions (ost o);
  ka_units : units (ost o') = units (ost o);
  ka_val : oval o' = oval o;
  ka_vsat : osat o' = osat o;
  ka_vlev : ovlev o' = ovlev o;
  ka_ptr : optr o' = optr o;
  ka_msg : omsg o' = omsg o
}.

Lemma keepa_refl o : keepa o o.
Proof. split; auto. Qed.
Lemma keepa_trans o1 o2 o3 : keepa o1 o2 -> keepa o2 o3 -> keepa o1 o3.
Proof. intros [] []; split; congruence. Qed.

Lemma assign_sim xs o s v d a :
  Rm o s -> K xs s -> range (tr s) v d -> ASG (tr s) v d = Un -> a <> Un ->
  exists s' o', assign_atom cL s v d a = Ok s' /\ o_assign o v d a = Ok o' /\
    Rm o' s' /\ K xs s' /\ keepa o o' /\ assign_post s v d a s'.
Proof.
  intros (HR & HT) [J B L D0 DS] R U NA.
  destruct (assign_atom_ok xs cL s v d a) as (s' & E & P & J'); auto.
  pose proof E as E0. unfold assign_atom in E.
  set (l := mkLit v d (match a with Pos => true | _ => false end)) in *.
  set (s1 := mark cL s v d a) in *.
  apply bind_ok in E. destruct E as (s2 & E1 & E2).
  destruct J as (HS & HC & HU).
  assert (R1 : Rc o s1) by (destruct HR; split; auto).
  destruct (satisfy_sim o s1 l s2) as (o2 & F2 & R2 & K2); auto.
  { pose proof (counts_ci (tr (ost o)) s HC (rt_asg _ _ HT)) as HN.
    intros n c Hn Cn. apply (HN n c); auto. }
  { intros c Hc w Hw. apply (si_ok _ HS c); auto. }
  destruct (remove_sim o2 s2 (neg l) s') as (o3 & F3 & R3 & K3); auto.
  pose proof (keeps_trans _ _ _ K2 K3) as K4.
  exists s', (on o3 (set_atom (ost o3) v d a (level (ost o3)) (uclause (ost o3)))).
  split; auto. split.
  { unfold o_assign. fold l. rewrite F2. cbn [bind]. rewrite F3. cbn [bind]. reflexivity. }
  destruct P as (P1 & P2 & P3 & P4).
  split; [|split; [|split; [|split; auto]]].
  - split.
    + destruct R3. split; simpl; auto.
    + split; simpl; rewrite (kp_tr _ _ K4), P1; simpl.
      * rewrite (rt_asg _ _ HT). auto.
      * intros v' d'. destruct (upd2_cases (ASG (tr s)) v d a v' d') as [(-> & -> & ->)|(N & ->)].
        -- rewrite !upd2_same. rewrite (rc_level _ _ R3), (fr_level _ _ P2). destruct a; auto. congruence.
        -- rewrite !upd2_other by lia. apply HT.
  - split; auto.
    + intros v' d' R' A'. rewrite P1, (fr_level _ _ P2) in *. simpl in *.
      destruct (upd2_cases (ASG (tr s)) v d a v' d') as [(-> & -> & X)|(N & X)].
      * rewrite !upd2_same. lia.
      * rewrite !upd2_other by lia. apply B; auto. congruence.
    + rewrite (fr_level _ _ P2). auto.
    + rewrite P1. auto.
    + rewrite P1. auto.
  - destruct K4. split; simpl; auto. rewrite kp_tr0. auto.
Qed.

(** ** reduceTheory *)

(** The variables. *)
Definition Rv (o : orig) (t : trail) : Prop :=
  forall v, 1 <= v <= NV t ->
    (osat o v = true /\ range t v (oval o v) /\ ASG t v (oval o v) = Pos /\
     ovlev o v = ALEV t v (oval o v)) \/
    (osat o v = false /\ oval o v = -1 /\ ovlev o v = -1 /\
     forall d, range t v d -> ASG t v d <> Pos).

Definition R (o : orig) (s : state) : Prop :=
  Rm o s /\ DST (tr (ost o)) = DST (tr s) /\ Rv o (tr s).

(** What reduceTheory leaves alone. *)
Record keepr (o o' : orig) : Prop := mkKeepr {
  kr_ucl : uclause (ost o') = uclause (ost o);
  kr_dec : decisions (ost o') = decisions (ost o);
  kr_units : units (ost o') = units (ost o);
  kr_ptr : optr o' = optr o;
  kr_msg : omsg o' = omsg o
}.

Lemma keepr_trans o1 o2 o3 : keepr o1 o2 -> keepr o2 o3 -> keepr o1 o3.
Proof. intros [] []; split; congruence. Qed.
Lemma keepa_keepr o o' : keepa o o' -> keepr o o'.
Proof. intros []; split; auto. Qed.

(** No new equality. *)
Definition nopos (t t' : trail) : Prop :=
  ext t t' /\ forall v d, ASG t v d = Un -> ASG t' v d <> Pos.

Lemma nopos_refl t : nopos t t.
Proof. split; [apply ext_refl|]. intros v d ->. discriminate. Qed.
Lemma nopos_trans t1 t2 t3 : nopos t1 t2 -> nopos t2 t3 -> nopos t1 t3.
Proof.
  intros (E1 & N1) (E2 & N2). split; [eapply ext_trans; eauto|]. intros v d U.
  destruct (ASG t2 v d) eqn:A; [auto| |].
  - exfalso. apply (N1 v d U); auto.
  - rewrite (ext_asg _ _ E2); congruence.
Qed.

Lemma Rv_nopos o o' t t' :
  oval o' = oval o -> osat o' = osat o -> ovlev o' = ovlev o ->
  nopos t t' -> Rv o t -> Rv o' t'.
Proof.
  intros E1 E2 E3 (X & N) H v Hv. rewrite E1, E2, E3. rewrite (ext_nv _ _ X) in Hv.
  destruct (H v Hv) as [(A & B & C & D)|(A & B & C & D)]; [left|right].
  - split; auto. split; [apply (ext_range t t'); auto|].
    rewrite (ext_asg _ _ X), (ext_lev _ _ X) by congruence. auto.
  - repeat split; auto. intros d Rd. apply (ext_range t t') in Rd; auto.
    specialize (D d Rd). destruct (ASG t v d) eqn:Ad; [apply N; auto|congruence|].
    rewrite (ext_asg _ _ X); congruence.
Qed.

Lemma nopos_mark t lev r v d : ASG t v d = Un -> nopos t (markT t lev r v d Neg).
Proof.
  intro U. split; [apply ext_mark; auto|]. intros v' d' U'. simpl.
  destruct (upd2_cases (ASG t) v d Neg v' d') as [(-> & -> & ->)|(_ & ->)]; congruence.
Qed.

Lemma exclude_sim xs v js : forall o s,
  Rm o s -> K xs s -> (forall j, In j js -> range (tr s) v j) ->
  exists s' o', foldM (exclude cL v) js s = Ok s' /\ foldM (o_exclude v) js o = Ok o' /\
    Rm o' s' /\ K xs s' /\ keepa o o' /\ nopos (tr s) (tr s') /\ DST (tr s') = DST (tr s).
Proof.
  induction js as [|j js IH]; intros o s HR HK Rg.
  - exists s, o. simpl. split; auto. split; auto. split; auto. split; auto.
    split; [apply keepa_refl|]. split; [apply nopos_refl|auto].
  - assert (ST : exists s1 o1, exclude cL v s j = Ok s1 /\ o_exclude v o j = Ok o1 /\
      Rm o1 s1 /\ K xs s1 /\ keepa o o1 /\ nopos (tr s) (tr s1) /\ DST (tr s1) = DST (tr s)).
    { unfold exclude, o_exclude. destruct HR as (HR & HT).
      rewrite (rc_conflict _ _ HR), (rt_asg _ _ HT).
      assert (SAME : exists s1 o1, Ok s = Ok s1 /\ Ok o = Ok o1 /\
        Rm o1 s1 /\ K xs s1 /\ keepa o o1 /\ nopos (tr s) (tr s1) /\ DST (tr s1) = DST (tr s)).
      { exists s, o. split; auto. split; auto. split; [split; auto|]. split; auto.
        split; [apply keepa_refl|]. split; [apply nopos_refl|auto]. }
      destruct (conflict s); auto. destruct (ASG (tr s) v j) eqn:A; auto.
      destruct (assign_sim xs o s v j Neg) as (s1 & o1 & E1 & E2 & R1 & K1 & A1 & P1); auto.
      - split; auto.
      - apply Rg; left; auto.
      - discriminate.
      - exists s1, o1. split; auto. split; auto. split; auto. split; auto. split; auto.
        destruct P1 as (P1 & _). rewrite P1. split; [apply nopos_mark; auto|auto]. }
    destruct ST as (s1 & o1 & E1 & E2 & R1 & K1 & A1 & N1 & D1).
    destruct (IH o1 s1) as (s' & o' & F1 & F2 & R' & K' & A' & N' & D'); auto.
    { intros i Hi. apply (ext_range (tr s) (tr s1)); [apply N1|]. apply Rg; right; auto. }
    exists s', o'. simpl. rewrite E1, E2. cbn [bind]. split; auto. split; auto. split; auto.
    split; auto. split; [eapply keepa_trans; eauto|]. split; [eapply nopos_trans; eauto|congruence].
Qed.

Lemma K_push xs s l :
  JC xs s -> bounded s -> 0 <= level s -> DOM (tr s) 0 = 0 -> K xs (push_dst s l).
Proof.
  intros J B L D. split; auto; [apply JC_push; auto|apply bounded_push; auto|].
  simpl. rewrite app_length. simpl. lia.
Qed.

Lemma pos_sim xs o s v d :
  R o s -> JC xs s -> bounded s -> 0 <= level s -> DOM (tr s) 0 = 0 ->
  range (tr s) v d -> ASG (tr s) v d = Un ->
  exists s' o', reduce_pos cL s v d = Ok s' /\ o_reduce_pos o v d = Ok o' /\ R o' s' /\ keepr o o'.
Proof.
  intros ((HR & HT) & HD & HV) J B L D0 Rg U.
  unfold reduce_pos, o_reduce_pos. set (l := mkLit v d true).
  rewrite (chk_same (tr s) (tr (ost o))) by apply HR. rewrite chk_ok by auto. cbn [bind].
  set (s0 := push_dst s l).
  destruct (assign_sim xs o s0 v d Pos) as (s1 & o1 & E1 & E2 & (R1 & T1) & K1 & A1 & P1 & Fr1 & _); auto.
  { split; [destruct HR; split; auto|destruct HT; split; auto]. }
  { apply K_push; auto. }
  { discriminate. }
  rewrite E1, E2. cbn [bind].
  set (o2 := on (set_var o1 v d true (level (ost o1)))
               (push_dst (ost (set_var o1 v d true (level (ost o1)))) l)).
  assert (R2 : Rm o2 s1).
  { split; [destruct R1; split; auto|destruct T1; split; auto]. }
  assert (NV1 : NV (tr s1) = NV (tr s)) by (rewrite P1; auto).
  assert (DM1 : DOM (tr s1) = DOM (tr s)) by (rewrite P1; auto).
  destruct Rg as (Rg1 & Rg2).
  destruct (exclude_sim xs v (zrange 0 d) o2 s1) as (s3 & o3 & E3 & F3 & R3 & K3 & A3 & N3 & D3); auto.
  { intros j Hj. apply in_zrange in Hj. split; [rewrite NV1|rewrite DM1]; lia. }
  rewrite E3, F3. cbn [bind].
  destruct R3 as (R3 & T3). rewrite (rc_dom _ _ R3).
  assert (DM3 : DOM (tr s3) = DOM (tr s)) by (rewrite (ext_dom _ _ (proj1 N3)); auto).
  assert (NV3 : NV (tr s3) = NV (tr s)) by (rewrite (ext_nv _ _ (proj1 N3)); auto).
  destruct (exclude_sim xs v (zrange (d + 1) (DOM (tr s3) v - (d + 1))) o3 s3)
    as (s4 & o4 & E4 & F4 & R4 & K4 & A4 & N4 & D4); auto.
  { split; auto. }
  { intros j Hj. apply in_zrange in Hj. rewrite DM3 in Hj. split; [rewrite NV3|rewrite DM3]; lia. }
  exists s4, o4. rewrite E4, F4. split; auto. split; auto.
  split.
  - split; auto. split.
    + rewrite D4, D3, P1. rewrite (ka_dst _ _ A4), (ka_dst _ _ A3). simpl. rewrite (ka_dst _ _ A1), HD. auto.
    + apply (Rv_nopos o2 o4 (tr s1)).
      * rewrite (ka_val _ _ A4), (ka_val _ _ A3); auto.
      * rewrite (ka_vsat _ _ A4), (ka_vsat _ _ A3); auto.
      * rewrite (ka_vlev _ _ A4), (ka_vlev _ _ A3); auto.
      * eapply nopos_trans; eauto.
      * intros w Hw. simpl. rewrite NV1 in Hw. rewrite P1. unfold range. simpl.
        destruct (Z.eq_dec w v) as [->|Nw].
        -- left. rewrite !upd1_same. split; auto. split; [lia|]. rewrite !upd2_same. split; auto.
           rewrite (rc_level _ _ R1). apply (fr_level _ _ Fr1).
        -- rewrite !upd1_other by auto. rewrite (ka_val _ _ A1), (ka_vsat _ _ A1), (ka_vlev _ _ A1).
           destruct (HV w Hw) as [(X1 & X2 & X3 & X4)|(X1 & X2 & X3 & X4)]; [left|right].
           ++ rewrite !upd2_other by auto. auto.
           ++ repeat split; auto. intros e He. rewrite upd2_other by auto. apply X4; auto.
  - apply (keepr_trans o o1); [apply keepa_keepr; auto|].
    apply (keepr_trans o1 o2); [split; auto|].
    apply (keepr_trans o2 o3); apply keepa_keepr; auto.
Qed.

Lemma check_entail_same t t' v : DOM t = DOM t' -> ASG t = ASG t' ->
  check_entail t v = check_entail t' v.
Proof.
  intros E1 E2. unfold check_entail. rewrite E1. generalize (@None Z).
  induction (zrange 0 (DOM t' v)) as [|j js IH]; intro f; simpl; auto.
  rewrite E2. destruct (ASG t' v j); auto. destruct f; auto.
Qed.

Lemma reduce_sim xs o s l :
  R o s -> JC xs s -> TB (tr s) (level s) (fun _ => False) -> TD (tr s) -> 0 <= level s ->
  lrange (tr s) l -> ASG (tr s) (lvar l) (lval l) = Un -> optr o = PIgnore ->
  exists s' o', reduce_theory cL s l = Ok s' /\ o_reduce o l = Ok o' /\ R o' s' /\ keepr o o'.
Proof.
  intros HR J HB HD L Rl U Pt.
  assert (B : bounded s) by (eapply TB_TD_bounded; eauto).
  assert (D0 : DOM (tr s) 0 = 0) by apply HB.
  unfold reduce_theory, o_reduce. destruct (leq l) eqn:El.
  { apply (pos_sim xs); auto. }
  destruct HR as ((HR & HT) & HDs & HV).
  set (v := lvar l) in *. set (d := lval l) in *.
  assert (Ev : osat o v = false).
  { destruct (HV v) as [(X1 & X2 & X3 & X4)|(X1 & _)]; auto; [apply Rl|].
    exfalso. assert (Ne : d <> oval o v) by congruence.
    destruct (tb_neg _ _ _ HB v (oval o v) d X2 Rl X3 Ne) as (X & _); [auto|congruence]. }
  unfold reduce_neg, o_reduce_neg. set (l' := mkLit v d false).
  rewrite (chk_same (tr s) (tr (ost o))) by apply HR. rewrite chk_ok by auto. cbn [bind].
  set (s0 := push_dst s l').
  destruct (assign_sim xs o s0 v d Neg) as (s1 & o1 & E1 & E2 & (R1 & T1) & K1 & A1 & P1 & Fr1 & _); auto.
  { split; [destruct HR; split; auto|destruct HT; split; auto]. }
  { apply K_push; auto. }
  { discriminate. }
  rewrite E1, E2. cbn [bind].
  set (o2 := on o1 (push_dst (ost o1) l')).
  assert (N1 : nopos (tr s) (tr s1)).
  { rewrite P1. apply (nopos_trans _ (tr s0)).
    - split; [apply ext_push|]. intros v' d' X. simpl. congruence.
    - apply nopos_mark; auto. }
  assert (R2 : R o2 s1).
  { split; [split; [destruct R1; split; auto|destruct T1; split; auto]|].
    split; [rewrite P1; simpl; rewrite (ka_dst _ _ A1), HDs; auto|].
    apply (Rv_nopos o o2 (tr s)); auto; simpl; apply A1. }
  assert (CE : o_check_entail o2 v = Ok (o2, check_entail (tr s1) v)).
  { unfold o_check_entail. simpl. rewrite (ka_ptr _ _ A1), Pt. cbn [delete_ptr bind].
    rewrite (ka_vsat _ _ A1), Ev.
    assert (X : check_entail (tr (ost o2)) v = check_entail (tr s1) v).
    { apply check_entail_same; simpl; [apply R1|apply T1]. }
    simpl in X. rewrite X. unfold fresh_ptr.
    assert (Y : set_optr o2 PIgnore = o2).
    { unfold set_optr, o2, on. simpl. rewrite (ka_ptr _ _ A1), Pt. auto. }
    destruct (check_entail (tr s1) v); rewrite Y; auto. }
  rewrite CE. cbn [bind].
  assert (K02 : keepr o o2) by (destruct A1; split; auto).
  destruct (check_entail (tr s1) v) as [e|] eqn:Ce.
  2: { exists s1, o2. auto. }
  destruct (check_entail_some _ _ _ Ce) as (Re & Ue & _).
  set (s2 := set_uclause (set_entails s1 (entails s1 + 1)) REnt).
  set (o3 := on o2 (set_entails (ost o2) (entails (ost o2) + 1))).
  destruct (pos_sim xs o3 s2 v e) as (s' & o' & F1 & F2 & R' & K'); auto.
  - destruct R2 as ((X1 & X2) & X3 & X4). split; [split; [destruct X1; split; auto|auto]|auto].
  - apply JC_ucl, JC_ent, K1.
  - apply K1.
  - apply K1.
  - apply K1.
  - split; auto. change (tr s2) with (tr s1). rewrite (ext_nv _ _ (proj1 N1)). apply Rl.
  - exists s', o'. split; auto. split; auto. split; auto.
    apply (keepr_trans o o2); auto. apply (keepr_trans o2 o3); [split; auto|auto].
Qed.

(** ** undoTheory *)

Lemma fold_sim_ind {A B C} (f : B -> A -> outcome B) (g : C -> A -> outcome C)
    (Q : list A -> B -> C -> Prop) l b c c' :
  Q [] b c ->
  (forall pre x suf b c c', l = pre ++ x :: suf -> Q pre b c -> g c x = Ok c' ->
     exists b', f b x = Ok b' /\ Q (pre ++ [x]) b' c') ->
  foldM g l c = Ok c' -> exists b', foldM f l b = Ok b' /\ Q l b' c'.
Proof.
  intros H0 H.
  assert (G : forall suf pre b c, l = pre ++ suf -> Q pre b c -> foldM g suf c = Ok c' ->
            exists b', foldM f suf b = Ok b' /\ Q l b' c').
  { induction suf as [|x suf IH]; intros pre b0 c0 E HP F; simpl in *.
    - rewrite app_nil_r in E; subst. injection F as <-. eauto.
    - apply bind_ok in F. destruct F as (c1 & F1 & F2).
      destruct (H pre x suf b0 c0 c1 E HP F1) as (b1 & E1 & HP1).
      rewrite E1; simpl. apply (IH (pre ++ [x]) b1 c1); auto.
      rewrite <- app_assoc; exact E. }
  apply (G l []); auto.
Qed.

Lemma foldM_flat_map {A B C} (f : B -> A -> outcome B) (g : C -> list A) l b :
  foldM f (flat_map g l) b = foldM (fun b x => foldM f (g x) b) l b.
Proof.
  revert b. induction l as [|x l IH]; intro b; simpl; auto.
  rewrite foldM_app. destruct (foldM f (g x) b); simpl; auto.
Qed.

Lemma foldM_map {A B C} (f : B -> A -> outcome B) (g : C -> A) l b :
  foldM f (map g l) b = foldM (fun b x => f b (g x)) l b.
Proof.
  revert b. induction l as [|x l IH]; intro b; simpl; auto.
  destruct (f b (g x)); simpl; auto.
Qed.

Lemma add_sim o s l s' :
  Rc o s -> add_literal cL s l = Ok s' ->
  exists o', o_add o l = Ok o' /\ Rc o' s' /\ keeps o o' /\ tr s' = tr s.
Proof.
  intros HR E. unfold add_literal in E. unfold o_add.
  rewrite (chk_same (tr s) (tr (ost o))) by apply HR.
  destruct (chk (tr s) l) as [[]| |]; try discriminate.
  cbn [bind] in *. rewrite (rc_rec _ _ HR).
  destruct (fold_sim (o_add_step l) (add_step cL l)
    (fun b c => Rc b c /\ keeps o b /\ tr c = tr s) (rec s l))
    with (b := o) (c := s) (c' := s') as (o' & E' & R' & K' & T'); auto.
  2: { split; auto. split; auto. apply keeps_refl. }
  2: { exists o'. auto. }
  intros n b c c' Hn (R1 & K1 & T1) Ec.
  unfold add_step in Ec. apply bind_ok in Ec. destruct Ec as (cls & Eg & Ec).
  unfold o_add_step. unfold getcl in *. rewrite (rc_cl _ _ R1).
  destruct (nth_error (cl c) n) as [cls'|] eqn:Hc; [|discriminate]. cbn [bind].
  rewrite (rc_sat _ _ R1 n). destruct (clev c n =? -1) eqn:Cn; cbn [negb].
  2: { injection Ec as <-. exists b. auto. }
  cbv zeta in *. eexists. split; [reflexivity|]. change (is_bk cL) with false in Ec.
  injection Ec as <-. split; [|split; auto].
  - pose proof (rc_num _ _ R1 n). destruct R1; split; simpl; auto. intro m. apply updn_eq; auto. congruence.
  - destruct K1. split; simpl; auto.
Qed.

Lemma inc_sim eq lev n cls so sg sg' :
  NV (tr so) = NV (tr sg) -> DOM (tr so) = DOM (tr sg) -> Rt (tr so) (tr sg) ->
  (forall m, num so m = num sg m) ->
  foldM (inc_count cL lev n) cls sg = Ok sg' ->
  exists x z x', foldM (o_inc eq lev n) cls so = Ok (set_cnt (set_num so x) z) /\
    sg' = set_num sg x' /\ forall m, x m = x' m.
Proof.
  intros E1 E2 HT HN E.
  destruct (fold_sim (o_inc eq lev n) (inc_count cL lev n)
    (fun b c => exists x z x', b = set_cnt (set_num so x) z /\ c = set_num sg x' /\
       forall m, x m = x' m) cls) with (b := so) (c := sg) (c' := sg')
    as (b' & F & x & z & x' & -> & -> & P); auto.
  3: { exists x, z, x'. auto. }
  2: { exists (num so), (cnt so), (num sg). split; [destruct so; auto|]. split; [destruct sg; auto|auto]. }
  intros l b c c' Hl (x & z & x' & -> & -> & P) Ec.
  unfold inc_count in Ec. unfold o_inc. simpl tr in *.
  rewrite (chk_same (tr sg) (tr so)) by auto.
  destruct (chk (tr sg) l) as [[]| |]; try discriminate. cbn [bind] in *.
  assert (X : (lev <? ALEV (tr so) (lvar l) (lval l)) || lit_un (tr so) l =
              (lev <? ALEV (tr sg) (lvar l) (lval l)) || lit_un (tr sg) l).
  { unfold lit_un. rewrite (rt_asg _ _ HT), (rt_lev _ _ HT).
    destruct (ASG (tr sg) (lvar l) (lval l)); rewrite ?orb_true_r; auto. }
  rewrite X. destruct (_ || _).
  - eexists. split; [reflexivity|]. change (is_bk cL) with false in Ec. injection Ec as <-.
    eexists _, _, _. split; [reflexivity|]. split; [reflexivity|]. simpl. intro m.
    apply updn_eq; auto. rewrite P. auto.
  - injection Ec as <-. eexists. split; [reflexivity|]. exists x, z, x'. auto.
Qed.

Lemma unsat_sim k o s l s' :
  Rm o s -> -1 <= k -> unsatisfy_clauses cL k s l = Ok s' ->
  exists o', o_unsatisfy k o l = Ok o' /\ Rc o' s' /\ keeps o o' /\ tr s' = tr s.
Proof.
  intros (HR & HT) Hk E. unfold unsatisfy_clauses in E. unfold o_unsatisfy.
  rewrite (chk_same (tr s) (tr (ost o))) by apply HR.
  destruct (chk (tr s) l) as [[]| |]; try discriminate.
  cbn [bind] in *. rewrite (rc_rec _ _ HR).
  destruct (fold_sim (o_unsat_step (leq l) k) (unsat_step cL k)
    (fun b c => Rc b c /\ keeps o b /\ tr c = tr s) (rec s l))
    with (b := o) (c := s) (c' := s') as (o' & E' & R' & K' & T'); auto.
  2: { split; auto. split; auto. apply keeps_refl. }
  2: { exists o'. auto. }
  intros n b c c' Hn (R1 & K1 & T1) Ec.
  unfold unsat_step in Ec. apply bind_ok in Ec. destruct Ec as (cls & Eg & Ec).
  unfold o_unsat_step. unfold getcl in *. rewrite (rc_cl _ _ R1).
  destruct (nth_error (cl c) n) as [cls'|] eqn:Hc; [|discriminate]. injection Eg as <-. cbn [bind].
  rewrite (rc_clev _ _ R1 n). destruct (k <? clev c n) eqn:Cn.
  2: { injection Ec as <-. exists b. auto. }
  apply bind_ok in Ec. destruct Ec as (c1 & Ei & Ec).
  destruct (inc_sim (leq l) k n cls' (ost b) c c1) as (x & z & x' & F & -> & P); auto.
  { apply R1. }
  { apply R1. }
  { rewrite (kp_tr _ _ K1), T1. auto. }
  { apply R1. }
  rewrite F. cbn [bind]. eexists. split; [reflexivity|]. injection Ec as <-.
  split; [|split; auto].
  - destruct R1; split; simpl; auto.
    + intro m. apply updn_eq; auto.
    + intro m. destruct (Nat.eq_dec m n) as [->|Nm]; [rewrite !updn_same; auto|].
      rewrite !updn_other; auto.
  - destruct K1; split; simpl; auto.
Qed.

(** What undoing leaves alone. *)
Record keepu (o o' : orig) : Prop := mkKeepu {
  ku_dst : DST (tr (ost o')) = DST (tr (ost o));
  ku_r : keepr o o'
}.

Lemma keeps_keepu o o' : keeps o o' -> keepu o o'.
Proof. intros []; split; [congruence|split; auto]. Qed.
Lemma keepu_trans o1 o2 o3 : keepu o1 o2 -> keepu o2 o3 -> keepu o1 o3.
Proof. intros [] []; split; [congruence|eapply keepr_trans; eauto]. Qed.

Lemma undo1_sim k o s js s' :
  Rm o s -> -1 <= k ->
  (forall v d, In (v, d) js -> ASG (tr s) v d = Un -> ALEV (tr s) v d <= k) ->
  foldM (undo1 cL k) js s = Ok s' ->
  exists o', foldM (o_undo1 k) js o = Ok o' /\ Rm o' s' /\ keeps o o' /\ tr s' = tr s.
Proof.
  intros (HR & HT) Hk HU E.
  destruct (fold_sim (o_undo1 k) (undo1 cL k)
    (fun b c => Rc b c /\ keeps o b /\ tr c = tr s) js)
    with (b := o) (c := s) (c' := s') as (o' & E' & R' & K' & T'); auto.
  2: { split; auto. split; auto. apply keeps_refl. }
  2: { exists o'. split; auto. split; auto. split; auto. rewrite (kp_tr _ _ K'), T'. auto. }
  intros (v & d) b c c' Hn (R1 & K1 & T1) Ec. unfold undo1 in Ec. unfold o_undo1.
  rewrite (kp_tr _ _ K1). rewrite T1 in Ec. rewrite (rt_asg _ _ HT), (rt_lev _ _ HT).
  specialize (HU v d Hn).
  assert (X : (k <? match ASG (tr s) v d with Un => -1 | _ => ALEV (tr s) v d end) =
              (k <? ALEV (tr s) v d)).
  { destruct (ASG (tr s) v d); auto. specialize (HU eq_refl).
    destruct (Z.ltb_spec k (-1)), (Z.ltb_spec k (ALEV (tr s) v d)); auto; lia. }
  rewrite X. destruct (k <? ALEV (tr s) v d).
  2: { injection Ec as <-. exists b. auto. }
  destruct (ASG (tr s) v d);
  (destruct (add_sim b c _ c' R1 Ec) as (b' & F & R2 & K2 & T2); exists b'; split; auto;
   split; auto; split; [eapply keeps_trans; eauto|congruence]).
Qed.

Definition unlow (k : Z) (t : trail) : Prop :=
  forall v d, range t v d -> ASG t v d = Un -> ALEV t v d <= k.

Lemma undo2_sim k v js : forall o s s',
  Rm o s -> -1 <= k -> unlow k (tr s) -> (forall d, In d js -> range (tr s) v d) ->
  foldM (fun s d => undo2 cL k s (v, d)) js s = Ok s' ->
  exists o', foldM (o_undo2 k v) js o = Ok o' /\ Rm o' s' /\ keepu o o' /\
    unlow k (tr s') /\ NV (tr s') = NV (tr s) /\ DOM (tr s') = DOM (tr s) /\
    DST (tr s') = DST (tr s) /\
    oval o' = oval o /\ osat o' = osat o /\ ovlev o' = ovlev o.
Proof.
  induction js as [|d js IH]; intros o s s' HR Hk HU Rg E.
  - simpl in E. injection E as <-. exists o. simpl. split; auto. split; auto.
    split; [split; auto; split; auto|]. auto 10.
  - simpl in E. apply bind_ok in E. destruct E as (s1 & E1 & E2).
    assert (ST : exists o1, o_undo2 k v o d = Ok o1 /\ Rm o1 s1 /\ keepu o o1 /\
      unlow k (tr s1) /\ NV (tr s1) = NV (tr s) /\ DOM (tr s1) = DOM (tr s) /\
      DST (tr s1) = DST (tr s) /\
      oval o1 = oval o /\ osat o1 = osat o /\ ovlev o1 = ovlev o).
    { destruct HR as (HR & HT). unfold o_undo2. unfold undo2 in E1.
      rewrite (rt_asg _ _ HT), (rt_lev _ _ HT).
      assert (Rd : range (tr s) v d) by (apply Rg; left; auto).
      specialize (HU v d Rd) as HU'.
      assert (X : (k <? match ASG (tr s) v d with Un => -1 | _ => ALEV (tr s) v d end) =
                  (k <? ALEV (tr s) v d)).
      { destruct (ASG (tr s) v d); auto. specialize (HU' eq_refl).
        destruct (Z.ltb_spec k (-1)), (Z.ltb_spec k (ALEV (tr s) v d)); auto; lia. }
      rewrite X. destruct (k <? ALEV (tr s) v d).
      2: { injection E1 as <-. exists o. split; auto. split; [split; auto|].
           split; [split; auto; split; auto|]. auto 10. }
      apply bind_ok in E1. destruct E1 as (s0 & E0 & E1). injection E1 as <-.
      assert (G : exists o0, match ASG (tr s) v d with
              | Neg => o_unsatisfy k o (mkLit v d false)
              | _ => o_unsatisfy k o (mkLit v d true)
              end = Ok o0 /\ Rc o0 s0 /\ keeps o o0 /\ tr s0 = tr s).
      { destruct (ASG (tr s) v d); apply (unsat_sim k o s _ s0); auto; split; auto. }
      destruct G as (o0 & -> & R0 & K0 & T0). cbn [bind].
      eexists. split; [reflexivity|].
      split; [split|].
      - destruct R0; split; simpl; auto.
      - split; simpl; rewrite (kp_tr _ _ K0), T0.
        + rewrite (rt_asg _ _ HT). auto.
        + intros v' d'. destruct (upd2_cases (ASG (tr s)) v d Un v' d') as [(-> & -> & ->)|(N & ->)].
          * rewrite upd2_same. auto.
          * rewrite !upd2_other by lia. apply HT.
      - split; [destruct K0; split; [simpl; congruence|split; auto]|].
        split.
        { intros v' d' R' U'. unfold range in R'. simpl in R'. rewrite T0 in R'. simpl in *.
          rewrite T0 in *.
          destruct (upd2_cases (ASG (tr s)) v d Un v' d') as [(-> & -> & Y)|(N & Y)].
          - rewrite upd2_same. lia.
          - rewrite upd2_other by lia. apply HU; auto. congruence. }
        simpl. rewrite T0. destruct K0. auto 10. }
    destruct ST as (o1 & F1 & R1 & K1 & U1 & N1 & D1 & S1 & V1 & V2 & V3).
    destruct (IH o1 s1 s') as (o' & F' & R' & K' & U' & N' & D' & S' & W1 & W2 & W3); auto.
    { intros e He. destruct (Rg e) as (X & Y); [right; auto|]. split; [rewrite N1|rewrite D1]; auto. }
    exists o'. simpl. rewrite F1. cbn [bind]. split; auto. split; auto.
    split; [eapply keepu_trans; eauto|]. split; auto. repeat split; congruence.
Qed.

Lemma forallb_same {A} (f g : A -> bool) l :
  (forall x, f x = g x) -> forallb f l = forallb g l.
Proof. intro H. induction l as [|x l IH]; simpl; auto. rewrite H, IH. auto. Qed.

Lemma undo_sim k lev ex o s s' :
  R o s -> -1 <= k -> TB (tr s) lev ex -> undo_theory cL s k = Ok s' -> cut (tr s) k (tr s') ->
  exists o', o_undo o k = Ok o' /\ R o' s' /\ keepr o o'.
Proof.
  intros (HR & HD & HV) Hk HB E CU. unfold undo_theory in E. unfold o_undo.
  apply bind_ok in E. destruct E as (s1 & E1 & E). apply bind_ok in E. destruct E as (s2 & E2 & E).
  assert (UL : unlow k (tr s)).
  { intros v d Rd U. rewrite (tb_un _ _ _ HB v d Rd U). lia. }
  assert (AT : atoms_from (tr (ost o)) 1 = atoms_from (tr s) 1).
  { apply atoms_from_ext; apply HR. }
  rewrite AT.
  destruct (undo1_sim k o s (atoms_from (tr s) 1) s1) as (o1 & F1 & R1 & K1 & T1); auto.
  { intros v d Hi. apply in_atoms1 in Hi. apply UL; auto. }
  rewrite F1. cbn [bind].
  unfold atoms_from in E2. rewrite foldM_flat_map in E2.
  replace (NV (tr s1) + 1 - 1) with (NV (tr s1)) in E2 by lia.
  replace (NV (tr (ost o1))) with (NV (tr s1)) by (symmetry; apply R1).
  rewrite T1 in *.
  set (Q := fun (pre : list Z) (b : orig) (c : state) =>
    Rm b c /\ keepu o1 b /\ unlow k (tr c) /\ NV (tr c) = NV (tr s) /\ DOM (tr c) = DOM (tr s) /\
    DST (tr c) = DST (tr s) /\
    forall w, (In w pre -> k < ovlev o w -> osat b w = false /\ oval b w = -1 /\ ovlev b w = -1) /\
              (~ In w pre \/ ovlev o w <= k ->
                 osat b w = osat o w /\ oval b w = oval o w /\ ovlev b w = ovlev o w)).
  destruct (fold_sim_ind (o_undo_var k)
     (fun s0 v => foldM (undo2 cL k) (map (fun d => (v, d)) (zrange 0 (DOM (tr s) v))) s0)
     Q (zrange 1 (NV (tr s))) o1 s1 s2) as (o2 & F2 & R2 & K2 & U2 & N2 & D2 & S2 & V2).
  { split; auto. split; [split; auto; split; auto|]. rewrite T1. split; auto.
    split; auto. split; auto. split; auto. intro w. destruct K1. split; [intros []|]. intros _.
    rewrite kp_val0, kp_vsat0, kp_vlev0. auto. }
  { intros pre v suf b c c' Ej (Rb & Kb & Ub & Nb & Db & Sb & Vb) Ec. rewrite foldM_map in Ec.
    assert (Hv : 1 <= v <= NV (tr s)).
    { assert (In v (zrange 1 (NV (tr s)))) as I by (rewrite Ej; apply in_or_app; right; left; auto).
      apply in_zrange in I. lia. }
    assert (Nv : ~ In v pre).
    { pose proof (nodup_zrange 1 (NV (tr s))) as ND. rewrite Ej in ND.
      apply NoDup_remove_2 in ND. intro I. apply ND. apply in_or_app; auto. }
    destruct (undo2_sim k v (zrange 0 (DOM (tr s) v)) b c c') as
      (b1 & G & Rb1 & Kb1 & Ub1 & Nb1 & Db1 & Sb1 & W1 & W2 & W3); auto.
    { intros d Hd. apply in_zrange in Hd. split; [rewrite Nb|rewrite Db]; lia. }
    unfold o_undo_var. rewrite (rc_dom _ _ (proj1 Rb)), Db, G. cbn [bind].
    eexists. split; [reflexivity|]. rewrite W3.
    destruct (Vb v) as (_ & Vv). destruct Vv as (Vv1 & Vv2 & Vv3); auto. rewrite Vv3.
    assert (X : forall b2, ost b2 = ost b1 -> ocsat b2 = ocsat b1 -> optr b2 = optr b1 -> omsg b2 = omsg b1 ->
       Rm b2 c' /\ keepu o1 b2).
    { intros b2 X1 X2 X3 X4. split.
      - destruct Rb1 as (Y1 & Y2). split; [|rewrite X1; auto].
        destruct Y1; split; rewrite ?X1, ?X2; auto.
      - apply (keepu_trans o1 b1); [eapply keepu_trans; eauto|]. split; [rewrite X1; auto|].
        split; auto; rewrite X1; auto. }
    destruct (Z.ltb_spec k (ovlev o v)) as [Lv|Lv].
    - destruct (X (set_var b1 v (-1) false (-1))) as (X1 & X2); auto.
      split; auto. split; auto. split; auto. split; [congruence|]. split; [congruence|].
      split; [congruence|]. intro w. simpl. destruct (Z.eq_dec w v) as [->|Nw].
      + rewrite !upd1_same. split; auto. intros [I|I]; [|lia]. exfalso. apply I.
        apply in_or_app; right; left; auto.
      + rewrite !upd1_other by auto. rewrite W1, W2, W3. destruct (Vb w) as (P1 & P2). split.
        * intros I. apply in_app_or in I. destruct I as [I|[I|[]]]; auto. congruence.
        * intros [I|I]; apply P2; auto. left. intro I'. apply I. apply in_or_app; auto.
    - destruct (X b1) as (X1 & X2); auto.
      split; auto. split; auto. split; auto. split; [congruence|]. split; [congruence|].
      split; [congruence|]. intro w. rewrite W1, W2, W3. destruct (Vb w) as (P1 & P2). split.
      + intros I. apply in_app_or in I. destruct I as [I|[I|[]]]; auto. subst w. lia.
      + intros [I|I]; apply P2; auto. left. intro I'. apply I. apply in_or_app; auto. }
  { exact E2. }
  rewrite F2. cbn [bind]. unfold prune_dst in *.
  destruct R2 as (R2 & T2).
  assert (DS2 : DST (tr (ost o2)) = DST (tr s2)).
  { rewrite (ku_dst _ _ K2), (kp_tr _ _ K1), HD, S2. auto. }
  assert (LO : forall l, lit_ok (tr (ost o2)) l = lit_ok (tr s2) l).
  { intro l. unfold lit_ok, in_range. rewrite (rc_nv _ _ R2), (rc_dom _ _ R2). auto. }
  assert (FB : forallb (lit_ok (tr (ost o2))) (DST (tr (ost o2))) = forallb (lit_ok (tr s2)) (DST (tr s2))).
  { rewrite DS2. apply forallb_same. auto. }
  rewrite FB. destruct (forallb (lit_ok (tr s2)) (DST (tr s2))); [|discriminate].
  cbn [bind]. eexists. split; [reflexivity|]. injection E as <-.
  split.
  - split; [split; [destruct R2; split; auto|destruct T2; split; auto]|]. split.
    + simpl. rewrite DS2. apply filter_ext. intro l. unfold lit_un. rewrite (rt_asg _ _ T2). auto.
    + intros v Hv. simpl in Hv. rewrite N2 in Hv.
      assert (Iv : In v (zrange 1 (NV (tr s)))) by (apply in_zrange; lia).
      destruct (V2 v) as (P1 & P2). simpl oval. simpl osat. simpl ovlev.
      cbn [tr set_tr] in CU |- *.
      set (t' := mkTrail (NV (tr s2)) (DOM (tr s2)) (VAL (tr s2)) (ASG (tr s2)) (ALEV (tr s2))
                   (AIDX (tr s2)) (CID (tr s2)) (filter (fun l => negb (lit_un (tr s2) l)) (DST (tr s2)))) in *.
      destruct (HV v Hv) as [(A & B & C & D)|(A & B & C & D)].
      * destruct (Z.le_gt_cases (ovlev o v) k) as [Lv|Lv].
        -- destruct P2 as (-> & -> & ->); auto. left. split; auto.
           split; [apply (cut_range (tr s) k t'); auto|].
           rewrite D in Lv. destruct (cut_kept _ _ _ CU v (oval o v) B Lv) as (-> & -> & _). auto.
        -- destruct P1 as (-> & -> & ->); auto. right. repeat split; auto.
           intros d Rd Pd. apply (cut_range (tr s) k t') in Rd; auto.
           assert (Ld : ALEV (tr s) v d <= k).
           { destruct (Z.le_gt_cases (ALEV (tr s) v d) k) as [Y|Y]; auto.
             destruct (cut_gone _ _ _ CU v d Rd) as (Y1 & _); [auto|congruence]. }
           destruct (cut_kept _ _ _ CU v d Rd Ld) as (Y1 & _).
           assert (d = oval o v); [|subst d; lia].
           rewrite <- (tb_pos _ _ _ HB v d Rd) by congruence. apply (tb_pos _ _ _ HB); auto.
      * destruct P2 as (-> & -> & ->); [lia|]. right. repeat split; auto.
        intros d Rd Pd. apply (cut_range (tr s) k t') in Rd; auto.
        destruct (Z.le_gt_cases (ALEV (tr s) v d) k) as [Y|Y].
        -- destruct (cut_kept _ _ _ CU v d Rd Y) as (Y1 & _). apply (D d Rd). congruence.
        -- destruct (cut_gone _ _ _ CU v d Rd) as (Y1 & _); [auto|congruence].
  - apply (keepr_trans o o1); [destruct K1; split; auto|].
    apply (keepr_trans o1 o2); [apply K2|split; auto].
Qed.
