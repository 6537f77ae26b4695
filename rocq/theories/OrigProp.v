(** * Propagation and checks of the first version *)

From Verif Require Import Spec Outcome State ModelCounter ModelHeur ModelLearn ModelWatch
  ModelSearch ModelBuild ModelOrig
  Base Trail Reduce Counter CounterUndo Propagate Choose Scores Chrono OrigSim.

(** What propagation leaves alone. *)
Record keepp (o o' : orig) : Prop := mkKeepp {
  kq_dec : decisions (ost o') = decisions (ost o);
  kq_ptr : optr o' = optr o;
  kq_msg : omsg o' = omsg o
}.

Lemma keepp_refl o : keepp o o.
Proof. split; auto. Qed.
Lemma keepp_trans o1 o2 o3 : keepp o1 o2 -> keepp o2 o3 -> keepp o1 o3.
Proof. intros [] []; split; congruence. Qed.
Lemma keepr_keepp o o' : keepr o o' -> keepp o o'.
Proof. intros []; split; auto. Qed.

Lemma R_on o s so sg :
  tr so = tr (ost o) -> tr sg = tr s -> cl so = cl (ost o) -> cl sg = cl s ->
  rec so = rec (ost o) -> rec sg = rec s ->
  level so = level sg -> ulist so = ulist sg -> conflict so = conflict sg ->
  confcl so = confcl sg -> tick so = tick sg ->
  num so = num (ost o) -> num sg = num s -> clev so = clev (ost o) -> clev sg = clev s ->
  R o s -> R (on o so) sg.
Proof.
  intros E1 E2 E3 E4 E5 E6 E7 E8 E9 E10 E11 E12 E13 E14 E15 ((H1 & H2) & H3 & H4).
  destruct H1. split; [split|split].
  - split; simpl; rewrite ?E1, ?E2, ?E3, ?E4, ?E5, ?E6, ?E12, ?E13, ?E14, ?E15; auto.
  - simpl. rewrite E1, E2. auto.
  - simpl. rewrite E1, E2. auto.
  - rewrite E2. exact H4.
Qed.

Ltac Ron s := apply (R_on _ s); auto.

(** One step of propagation. *)
Lemma CS_unit s n rest cls l u :
  CS s -> conflict s = false -> ulist s = n :: rest -> nth_error (cl s) n = Some cls ->
  clev s n = -1 -> In l cls -> lit_un (tr s) l = true ->
  let s2 := set_units (set_ulist (set_uclause s (RCls n)) rest) u in
  JC [n] s2 /\ lrange (tr s) l /\
  forall s3, reduce_theory cL s2 l = Ok s3 -> CS s3.
Proof.
  intros H Cf Ul Hc Cn Hl Ul' s2.
  assert (Rl : lrange (tr s) l) by (eapply CS_clause; eauto).
  pose proof (TB_noconf _ _ _ (cs_TB _ H) Cf) as HB.
  assert (J2 : JC [n] s2).
  { destruct (cs_J _ H) as (HS & HC & HU). split; [destruct HS; split; auto|].
    split; [exact HC|]. destruct HU as [u1 u2 u3 u4]. split; simpl.
    - intros m Hm. apply u1. rewrite Ul; right; auto.
    - intros m Hm. apply u2. rewrite Ul; right; auto.
    - intros _ m c' Hm Cm. destruct (u3 Cf m c' Hm Cm) as [Y|(Y1 & [Y2|[]])]; auto.
      right. split; auto. rewrite Ul in Y2. destruct Y2; auto.
    - congruence. }
  split; auto. split; auto. intros s3' E3'.
  destruct (reduce_theory_ok [n] cL s2 l) as (s3 & E3 & J3 & F3 & X3 & N3 & D3 & B3 & T3 & M3 & R3 & A3); auto.
  { apply (cs_TD _ H). }
  { apply (cs_lev _ H). }
  { apply lit_un_iff; auto. }
  rewrite E3 in E3'. injection E3' as <-.
  change (tr s2) with (tr s) in *. change (level s2) with (level s) in *.
  assert (Cl3 : cl s3 = cl s) by apply (fr_cl _ _ F3).
  assert (Lv3 : level s3 = level s) by apply (fr_level _ _ F3).
  destruct J3 as (HS & HC & HU). split; auto.
  - split; auto. split; auto. destruct HU as [u1 u2 u3 u4]. split; auto.
    intros Cf3 m c' Hm Cm. destruct (u3 Cf3 m c' Hm Cm) as [Y|(Y1 & [Y2|[<-|[]]])]; auto.
    exfalso. rewrite Cl3 in Hm. rewrite Hc in Hm. injection Hm as <-.
    destruct (HC n cls) as [(_ & Z2 & _)|(Z1 & _)]; [rewrite Cl3; auto| |lia].
    rewrite (Z2 l Hl) in T3; discriminate.
  - rewrite Lv3. eapply TB_weaken; eauto.
  - rewrite Lv3. apply (cs_lev _ H).
  - rewrite Lv3, Cl3. apply (CLO_ext (tr s)); auto. apply (cs_clo _ H).
Qed.

Lemma first_un_same t t' c : NV t = NV t' -> DOM t = DOM t' -> ASG t = ASG t' ->
  first_un t c = first_un t' c.
Proof.
  intros E1 E2 E3. induction c as [|l c IH]; simpl; auto.
  rewrite (chk_same t' t), IH by auto. unfold lit_un. rewrite E3. auto.
Qed.

Lemma loop_sim fuel : forall o s s',
  R o s -> CS s -> optr o = PIgnore -> unit_propagation fuel cL s = Ok s' ->
  exists o', o_propagate_loop fuel o = Ok o' /\ R o' s' /\ keepp o o'.
Proof.
  induction fuel as [|f IH]; intros o s s' HR H Pt E; [discriminate|].
  cbn [unit_propagation] in E. cbn [o_propagate_loop]. cbv zeta.
  pose proof HR as ((HRc & HT) & HDs & HV).
  rewrite (rc_conflict _ _ HRc), (rc_ulist _ _ HRc).
  destruct (conflict s) eqn:Cf.
  { injection E as <-. exists o. split; auto. split; auto. apply keepp_refl. }
  destruct (ulist s) as [|n rest] eqn:Ul.
  { injection E as <-. exists o. split; auto. split; auto. apply keepp_refl. }
  cbv zeta in E.
  assert (Hn : (n < length (cl s))%nat) by (apply (ui_id _ _ (CS_ui _ H)); rewrite Ul; left; auto).
  destruct (lt_nth_error _ _ Hn) as (cls & Hc).
  unfold getcl in *. simpl cl in *. rewrite (rc_cl _ _ HRc), Hc in *. cbn [bind] in *.
  rewrite (rc_sat _ _ HRc n).
  set (o1 := on o (set_ulist (set_uclause (set_units (ost o) (units (ost o) + 1)) (RCls n)) rest)).
  set (s1 := set_ulist (set_uclause s (RCls n)) rest) in *.
  assert (R1 : R o1 s1) by (Ron s; simpl; apply HRc).
  assert (K1 : keepp o o1) by (split; auto).
  assert (SKIP : (clev s n <> -1 \/ num s n = 0) -> unit_propagation f cL s1 = Ok s' ->
            exists o', o_propagate_loop f o1 = Ok o' /\ R o' s' /\ keepp o o').
  { intros X E1. assert (H1 : CS s1) by (eapply CS_pop; eauto).
    destruct (IH o1 s1 s') as (o' & F & R' & K'); auto.
    exists o'. split; auto. split; auto. eapply keepp_trans; eauto. }
  change (clev s1 n) with (clev s n) in E.
  destruct (clev s n =? -1) eqn:Cn; cbn [negb].
  2: { apply SKIP; auto. apply Z.eqb_neq in Cn; auto. }
  apply Z.eqb_eq in Cn.
  assert (D0 : DOM (tr s) 0 = 0) by apply (cs_TB _ H).
  destruct (first_un_ok (tr s) cls D0 (CS_clause s n cls H Hc)) as (r & Er & Pr).
  change (tr s1) with (tr s) in E. rewrite Er in E. cbn [bind] in E.
  simpl tr at 1. rewrite (first_un_same (tr (ost o)) (tr s)) by (try apply HRc; apply HT).
  rewrite Er. cbn [bind].
  destruct r as [l|].
  2: { apply SKIP; auto.
       right. destruct (CS_ci _ H n cls Hc) as [(_ & _ & X)|(X & _)]; lia. }
  destruct Pr as (Hl & Ul').
  apply bind_ok in E. destruct E as (s3 & E3 & E).
  set (s2 := set_units s1 (units s1 + 1)) in *.
  destruct (CS_unit s n rest cls l (units s1 + 1) H Cf Ul Hc Cn Hl Ul') as (J2 & Rl & H3).
  fold s1 s2 in J2, H3.
  destruct (reduce_sim [n] o1 s2 l) as (s3' & o3 & F3 & G3 & R3 & K3); auto.
  { destruct R1 as ((X1 & X2) & X3 & X4). split; [split; [destruct X1; split; auto|auto]|auto]. }
  { apply (TB_noconf _ _ _ (cs_TB _ H) Cf). }
  { apply (cs_TD _ H). }
  { apply (cs_lev _ H). }
  { apply lit_un_iff; auto. }
  rewrite F3 in E3. injection E3 as ->. fold o1. rewrite G3. cbn [bind].
  destruct (IH o3 s3 s') as (o' & F & R' & K'); auto.
  { rewrite (kr_ptr _ _ K3). auto. }
  exists o'. split; auto. split; auto. apply (keepp_trans o o1); auto.
  apply (keepp_trans o1 o3); auto. apply keepr_keepp; auto.
Qed.

Lemma CS_noul s : CS s -> conflict s = true -> CS (set_ulist s []).
Proof.
  intros [(HS & HC & HU) HB HD HL HO] Cf. split; auto.
  split; [destruct HS; split; auto|]. split; [exact HC|].
  destruct HU as [u1 u2 u3 u4]. split; simpl; auto; try tauto. congruence.
Qed.

(** The part of [up_post] that is used. *)
Record upp (s s' : state) : Prop := mkUpp {
  pp_CS : CS s';
  pp_fru : fru s s';
  pp_ext : ext (tr s) (tr s');
  pp_new : newlev (tr s) (level s) (tr s');
  pp_un : (unass (tr s') <= unass (tr s))%nat;
  pp_ul : ulist s' = [];
  pp_ent : entails_from (tr s) (cl s) (tr s')
}.

Lemma units_sim o s :
  R o s -> CS s -> optr o = PIgnore ->
  exists N s' o', (forall fuel, (N <= fuel)%nat -> o_units fuel o = Ok o') /\
    R o' s' /\ keepp o o' /\ upp s s' /\ (ulist s = [] -> o' = o /\ s' = s).
Proof.
  intros HR H Pt. unfold o_units. pose proof HR as ((HRc & _) & _).
  rewrite (rc_ulist _ _ HRc). destruct (ulist s) as [|n rest] eqn:Ul.
  { exists 0%nat, s, o. split; auto. split; auto. split; [apply keepp_refl|]. split; auto.
    split; auto; [apply fru_refl|apply ext_refl|apply newlev_refl|]. intros a _ _ A; auto. }
  destruct (unit_propagation_ok cL s H) as (N & s1 & E & H1 & F1 & X1 & W1 & M1 & C1 & A1 & _).
  destruct (loop_sim N o s s1 HR H Pt (E N (le_n N))) as (o1 & G1 & R1 & K1).
  assert (LE : forall fuel, (N <= fuel)%nat -> o_propagate_loop fuel o = Ok o1).
  { intros fuel Hf. destruct (loop_sim fuel o s s1 HR H Pt (E fuel Hf)) as (o1' & G1' & _).
    rewrite G1'. clear -G1 G1' Hf. revert o o1 o1' fuel Hf G1 G1'.
    induction N as [|N IH]; intros o o1 o1' fuel Hf G1 G1'; [discriminate|].
    destruct fuel as [|f]; [lia|]. cbn [o_propagate_loop] in G1, G1'. cbv zeta in G1, G1'.
    destruct (conflict (ost o)); [congruence|]. destruct (ulist (ost o)) as [|n ul]; [congruence|].
    destruct (getcl _ _); try discriminate. cbn [bind] in *.
    destruct (ocsat o n); [apply (IH _ _ _ f ltac:(lia) G1 G1')|].
    destruct (first_un _ _) as [[l|]| |]; try discriminate; cbn [bind] in *;
      [|apply (IH _ _ _ f ltac:(lia) G1 G1')].
    destruct (o_reduce _ _); try discriminate. cbn [bind] in *.
    apply (IH _ _ _ f ltac:(lia) G1 G1'). }
  set (s2 := if conflict s1 then set_ulist s1 [] else s1).
  set (o2 := if conflict (ost o1) then on o1 (set_ulist (ost o1) []) else o1).
  exists N, s2, o2. split.
  { intros fuel Hf. unfold o_propagate. rewrite LE by auto. cbn [bind]. auto. }
  pose proof R1 as ((RC1 & _) & _).
  unfold s2, o2. rewrite (rc_conflict _ _ RC1).
  destruct (conflict s1) eqn:Cf.
  - split; [Ron s1; simpl; apply RC1|]. split; [destruct K1; split; auto|].
    split; [|discriminate]. split; auto; [apply CS_noul; auto|].
    destruct F1; split; auto.
  - split; auto. split; auto. split; [|discriminate]. split; auto.
    destruct C1 as [C1|C1]; [congruence|auto].
Qed.

(** checkSat *)
Lemma check_sat_sim o s : R o s -> CS s -> o_check_sat o = true -> all_sat s /\ conflict s = false.
Proof.
  intros ((HRc & _) & _) H E. unfold o_check_sat in E. rewrite forallb_forall in E.
  assert (X : forall n c, nth_error (cl s) n = Some c -> clev s n <> -1).
  { intros n c Hn Cn. assert (L := nth_error_lt _ _ _ Hn). specialize (E n).
    rewrite (rc_sat _ _ HRc), Cn in E. rewrite (rc_cl _ _ HRc) in E.
    assert (negb (-1 =? -1) = true); [apply E; apply in_seq; lia|discriminate]. }
  split.
  - intros c Hc. apply In_nth_error in Hc. destruct Hc as (n & Hn).
    destruct (CS_ci _ H n c Hn) as [(C1 & _)|(_ & _ & (l & L1 & L2 & _) & _)]; eauto.
    exfalso. apply (X n c); auto.
  - destruct (conflict s) eqn:Cf; auto. exfalso.
    destruct (ui_conf _ _ (CS_ui _ H) Cf) as (K1 & K2 & _).
    destruct (lt_nth_error _ _ K1) as (c & Hc). apply (X _ c Hc); auto.
Qed.

(** chooseLiteral *)
Lemma choose_sim o s l : R o s -> CS s -> conflict s = false ->
  snd (o_choose o) = Some l -> leq l = true /\ lrange (tr s) l /\ ASG (tr s) (lvar l) (lval l) = Un.
Proof.
  intros ((HRc & HT) & _) H Cf. unfold o_choose. cbn [snd].
  assert (G : forall js b, (forall v d, In (v, d) js -> In (v, d) (atoms_from (tr (ost o)) 0)) ->
     (forall x, snd b = Some x -> leq x = true /\ lrange (tr s) x /\ ASG (tr s) (lvar x) (lval x) = Un) ->
     forall x, snd (fold_left (o_choose_step o) js b) = Some x ->
       leq x = true /\ lrange (tr s) x /\ ASG (tr s) (lvar x) (lval x) = Un).
  { induction js as [|(v & d) js IH]; intros b Hj Hb x Hx; simpl in Hx; auto.
    apply (IH (o_choose_step o b (v, d))); auto.
    { intros v' d' I. apply Hj. right; auto. }
    intros y Hy. unfold o_choose_step in Hy.
    destruct (osat o v); auto. rewrite (rt_asg _ _ HT) in Hy.
    destruct (ASG (tr s) v d) eqn:A; auto.
    destruct (fst b <? _); auto. simpl in Hy. injection Hy as <-. simpl. split; auto. split; auto.
    assert (I : In (v, d) (atoms_from (tr (ost o)) 0)) by (apply Hj; left; auto).
    apply in_atoms_from in I. rewrite (rc_nv _ _ HRc), (rc_dom _ _ HRc) in I.
    assert (D0 : DOM (tr s) 0 = 0) by apply (cs_TB _ H).
    assert (v <> 0) by (intros ->; lia). split; simpl; lia. }
  intro E. apply (G _ _) with (3 := E); auto. simpl. discriminate.
Qed.
