(** * Unit propagation with counters *)

From Verif Require Import Spec Outcome State ModelCounter ModelLearn Base Trail Reduce Counter
  CounterUndo.

(** Every clause was, at the end of each completed level [j], satisfied or had two open
    occurrences. *)
Definition notfalse (t : trail) (j : Z) (l : lit) : bool :=
  negb (lit_false t l && (llev t l <=? j)).
Definition clo (t : trail) (j : Z) (c : clause) : Prop :=
  (exists l, In l c /\ lit_true t l = true /\ llev t l <= j) \/
  (2 <= countb (notfalse t j) c)%nat.
Definition CLO (t : trail) (cls : list clause) (lev : Z) : Prop :=
  forall j c, 0 <= j < lev -> In c cls -> clo t j c.

Lemma notfalse_ext t t' lev j l :
  ext t t' -> newlev t lev t' -> j < lev -> notfalse t' j l = notfalse t j l.
Proof.
  intros E N J. unfold notfalse. destruct (lit_un t l) eqn:U.
  - assert (F : lit_false t l = false) by (destruct (lit_cases t l) as [H|[H|H]]; intuition congruence).
    rewrite F. simpl. destruct (lit_false t' l) eqn:F'; auto.
    apply lit_un_iff in U. apply lit_false_as in F'. unfold llev. rewrite (N _ _ U F').
    destruct (Z.leb_spec lev j); auto. lia.
  - rewrite (ext_llev t t' l E U). apply lit_un_false_iff in U. unfold lit_false.
    rewrite (ext_asg _ _ E); auto.
Qed.

Lemma clo_ext t t' lev j c :
  ext t t' -> newlev t lev t' -> j < lev -> clo t j c -> clo t' j c.
Proof.
  intros E N J [(l & Hl & Tl & Ll)|H].
  - left. exists l. split; auto. split; [apply (ext_true t t'); auto|].
    rewrite (ext_llev t t'); auto. apply lit_true_un; auto.
  - right. rewrite (countb_ext _ (notfalse t j)); auto. intros l _. eapply notfalse_ext; eauto.
Qed.

Lemma CLO_ext t t' cls lev :
  ext t t' -> newlev t lev t' -> CLO t cls lev -> CLO t' cls lev.
Proof. intros E N H j c J Hc. eapply clo_ext; eauto. lia. Qed.

Lemma notfalse_cut t k t' j l :
  cut t k t' -> lrange t l -> j <= k -> notfalse t' j l = notfalse t j l.
Proof.
  intros C R J. unfold notfalse. destruct (Z.le_gt_cases (llev t l) k) as [L|L].
  - rewrite (cut_false t k t'), (cut_llev t k t'); auto.
  - pose proof (cut_un t k t' l C R L) as U.
    assert (F : lit_false t' l = false) by (destruct (lit_cases t' l) as [H|[H|H]]; intuition congruence).
    rewrite F. simpl. destruct (Z.leb_spec (llev t l) j); [lia|]. rewrite andb_false_r. auto.
Qed.

Lemma clo_cut t k t' j c :
  cut t k t' -> (forall l, In l c -> lrange t l) -> j <= k -> clo t j c -> clo t' j c.
Proof.
  intros C R J [(l & Hl & Tl & Ll)|H].
  - left. exists l. split; auto. rewrite (cut_true t k t'), (cut_llev t k t'); auto; try lia.
  - right. rewrite (countb_ext _ (notfalse t j)); auto. intros l Hl. eapply notfalse_cut; eauto.
Qed.

Lemma CLO_cut t k t' cls lev :
  cut t k t' -> cls_ok t cls -> k <= lev -> CLO t cls lev -> CLO t' cls k.
Proof.
  intros C W K H j c J Hc. eapply clo_cut; eauto; try lia. apply H; auto. lia.
Qed.

(** Counter state between reductions. *)
Record CS (s : state) : Prop := mkCS {
  cs_J : JC [] s;
  cs_TB : TB (tr s) (level s) (fun _ => conflict s = true);
  cs_TD : TD (tr s);
  cs_lev : 0 <= level s;
  cs_clo : CLO (tr s) (cl s) (level s)
}.

Lemma CS_si s : CS s -> SI s.
Proof. intros [(H & _) _ _ _ _]; auto. Qed.
Lemma CS_ci s : CS s -> CI s.
Proof. intros [(_ & H & _) _ _ _ _]; auto. Qed.
Lemma CS_ui s : CS s -> UI [] s.
Proof. intros [(_ & _ & H) _ _ _ _]; auto. Qed.

Lemma TB_noconf t lev b : TB t lev (fun _ => b = true) -> b = false -> TB t lev (fun _ => False).
Proof. intros H E. eapply TB_weaken; eauto. simpl. intros; congruence. Qed.

(** Fields untouched by propagation. *)
Record fru (s s' : state) : Prop := mkFru {
  fu_cl : cl s' = cl s;
  fu_vs : vs s' = vs s;
  fu_level : level s' = level s;
  fu_backtracks : backtracks s' = backtracks s;
  fu_decisions : decisions s' = decisions s;
  fu_restarts : restarts s' = restarts s;
  fu_tick : tick s' = tick s
}.

Lemma fru_refl s : fru s s.
Proof. split; auto. Qed.
Lemma fru_trans s1 s2 s3 : fru s1 s2 -> fru s2 s3 -> fru s1 s3.
Proof. intros [] []; split; congruence. Qed.
Lemma fr_fru s s' : fr s s' -> fru s s'.
Proof. intros []; split; auto. Qed.

Lemma first_un_ok t c :
  DOM t 0 = 0 -> (forall l, In l c -> lrange t l) ->
  exists o, first_un t c = Ok o /\
    match o with
    | Some l => In l c /\ lit_un t l = true
    | None => countb (lit_un t) c = 0%nat
    end.
Proof.
  intros D0. induction c as [|l c IH]; intro R.
  - exists None. split; auto.
  - simpl. rewrite chk_ok by (auto; apply R; left; auto). cbn [bind].
    destruct (lit_un t l) eqn:U.
    + exists (Some l). auto.
    + destruct IH as (o & E & P). { intros; apply R; right; auto. }
      exists o. split; auto. destruct o as [l'|].
      * tauto.
      * rewrite countb_cons, U. simpl. auto.
Qed.

(** Assignments that satisfy all clauses and agree with the trail keep agreeing. *)
Definition entails_from (t : trail) (cls : list clause) (t' : trail) : Prop :=
  forall a, legalT a t -> (forall c, In c cls -> clause_holds a c) -> agree a t -> agree a t'.

Lemma agree_false a t l : agree a t -> lrange t l -> lit_false t l = true -> ~ lit_holds a l.
Proof.
  intros H R F. apply lit_false_asg in F. destruct (H _ _ R) as (H1 & H2).
  unfold lit_holds. destruct (leq l); auto.
Qed.

Lemma agree_true a t l : agree a t -> lrange t l -> lit_true t l = true -> lit_holds a l.
Proof.
  intros H R F. apply lit_true_asg in F. destruct (H _ _ R) as (H1 & H2).
  unfold lit_holds. destruct (leq l); auto.
Qed.

Lemma CS_clause s n c : CS s -> nth_error (cl s) n = Some c -> forall l, In l c -> lrange (tr s) l.
Proof.
  intros H Hn l Hl. apply (si_ok _ (CS_si _ H) c); auto. eapply nth_error_In; eauto.
Qed.

(** In a pending clause that is not satisfied, all literals but one occurrence are false. *)
Lemma unit_others s n c l :
  CS s -> nth_error (cl s) n = Some c -> clev s n = -1 -> num s n <= 1 -> In l c ->
  lit_un (tr s) l = true -> forall x, In x c -> x <> l -> lit_false (tr s) x = true.
Proof.
  intros H Hn C N Hl U x Hx Nx. pose proof (CS_ci _ H n c Hn) as [(_ & C2 & C3)|(C1 & _)]; [|lia].
  destruct (lit_cases (tr s) x) as [(T & _)|[(_ & Ux & _)|(_ & _ & F)]]; auto.
  - rewrite (C2 x Hx) in T; discriminate.
  - exfalso. apply Nx. apply (countb_one_unique (lit_un (tr s)) c); auto. lia.
Qed.

Lemma unit_pre_reason s n c l :
  CS s -> NoDup c -> nth_error (cl s) n = Some c -> clev s n = -1 -> num s n <= 1 -> In l c ->
  lit_un (tr s) l = true -> pre_reason (tr s) (cl s) (level s) (RCls n) l.
Proof.
  intros H ND Hn C N Hl U. exists c. split; auto. split; auto.
  pose proof (unit_others s n c l H Hn C N Hl U) as F.
  split; [intros x Hx Nx; split; [eapply CS_clause; eauto|auto]|].
  intro L. assert (Hc : In c (cl s)) by (eapply nth_error_In; eauto).
  destruct (cs_clo _ H (level s - 1) c) as [(w & Hw & Tw & _)|C2]; auto; [lia| |].
  - pose proof (CS_ci _ H n c Hn) as [(_ & D2 & _)|(D1 & _)]; [|lia].
    rewrite (D2 w Hw) in Tw; discriminate.
  - destruct (countb_two _ _ C2 ND) as (x & y & Hx & Hy & Nxy & Fx & Fy).
    assert (Z : exists w, In w c /\ w <> l /\ notfalse (tr s) (level s - 1) w = true).
    { destruct (lit_eq_dec x l) as [->|Nx]; [exists y|exists x]; auto. }
    destruct Z as (w & Hw & Nw & Fw). exists w. split; auto. split; auto.
    pose proof (F w Hw Nw) as Ff. unfold notfalse in Fw. rewrite Ff in Fw. simpl in Fw.
    apply negb_true_iff in Fw. apply Z.leb_gt in Fw.
    assert (0 <= llev (tr s) w <= level s); [|lia].
    apply (tb_as _ _ _ (cs_TB _ H)); [eapply CS_clause; eauto|]. apply lit_false_as; auto.
Qed.

Definition up_post (c : cfg) (s s' : state) : Prop :=
  CS s' /\ fru s s' /\ ext (tr s) (tr s') /\ newlev (tr s) (level s) (tr s') /\
  (unass (tr s') <= unass (tr s))%nat /\
  (conflict s' = true \/ ulist s' = []) /\
  entails_from (tr s) (cl s) (tr s') /\
  ((forall k, In k (cl s) -> NoDup k) -> TR (tr s) (cl s) -> TR (tr s') (cl s)).

Lemma CS_pop s n rest :
  CS s -> ulist s = n :: rest -> conflict s = false ->
  (clev s n <> -1 \/ num s n = 0) ->
  forall r, CS (set_ulist (set_uclause s r) rest).
Proof.
  intros H E Cf X r. destruct H as [(HS & HC & HU) HB HD HL HO]. split; auto.
  split; [destruct HS; split; auto|]. split; [exact HC|].
  destruct HU as [u1 u2 u3 u4]. split; simpl.
  - intros m Hm. apply u1. rewrite E; right; auto.
  - intros m Hm. apply u2. rewrite E; right; auto.
  - intros _ m c Hm Cm. destruct (u3 Cf m c Hm Cm) as [Y|(Y1 & Y2)]; auto.
    destruct Y2 as [Y2|[]]. rewrite E in Y2. destruct Y2 as [<-|Y2]; auto. destruct X as [X|X]; [congruence|lia].
  - congruence.
Qed.

Lemma unit_propagation_ok c s : CS s ->
  exists N s', (forall fuel, (N <= fuel)%nat -> unit_propagation fuel c s = Ok s') /\ up_post c s s'.
Proof.
  remember (unass (tr s)) as un eqn:Eu. revert s Eu.
  induction un as [un IHu] using lt_wf_ind. intros s Eu.
  remember (length (ulist s)) as len eqn:El. revert s Eu El.
  induction len as [|len IHl]; intros s Eu El H.
  - exists 1%nat, s. destruct (ulist s) eqn:Ul; [|discriminate]. split.
    + intros [|f] Hf; [lia|]. simpl. rewrite Ul. destruct (conflict s); auto.
    + split; auto. split; [apply fru_refl|]. split; [apply ext_refl|].
      split; [apply newlev_refl|]. split; auto. split; auto. split; auto. intros a _ _ A; auto.
  - destruct (conflict s) eqn:Cf.
    { exists 1%nat, s. split.
      - intros [|f] Hf; [lia|]. simpl. rewrite Cf. auto.
      - split; auto. split; [apply fru_refl|]. split; [apply ext_refl|].
        split; [apply newlev_refl|]. split; auto. split; auto. split; auto. intros a _ _ A; auto. }
    destruct (ulist s) as [|n rest] eqn:Ul; [discriminate|].
    assert (Hn : (n < length (cl s))%nat) by (apply (ui_id _ _ (CS_ui _ H)); rewrite Ul; left; auto).
    destruct (lt_nth_error _ _ Hn) as (cls & Hc).
    set (s1 := set_ulist (set_uclause s (RCls n)) rest).
    assert (STEP : forall f, unit_propagation (S f) c s =
              if clev s n =? -1 then
                 let* o := first_un (tr s) cls in
                 match o with
                 | Some l => let* s2 := reduce_theory c (set_units s1 (units s + 1)) l in
                             unit_propagation f c s2
                 | None => unit_propagation f c s1
                 end
               else unit_propagation f c s1).
    { intro f. simpl. rewrite Cf, Ul. unfold getcl. simpl. rewrite Hc. reflexivity. }
    assert (SKIP : (clev s n <> -1 \/ num s n = 0) ->
       (forall f, unit_propagation (S f) c s = unit_propagation f c s1) ->
       exists N s', (forall fuel, (N <= fuel)%nat -> unit_propagation fuel c s = Ok s') /\ up_post c s s').
    { intros X ST. assert (H1 : CS s1) by (eapply CS_pop; eauto).
      destruct (IHl s1) as (N & s' & E & P1 & P2 & P3 & P4 & P5 & P6 & P7 & P8); auto.
      exists (S N), s'. split.
      - intros [|f] Hf; [lia|]. rewrite ST. apply E; lia.
      - split; auto. split; [|auto 10]. destruct P2; split; auto. }
    destruct (clev s n =? -1) eqn:Cn.
    2: { apply SKIP; auto. apply Z.eqb_neq in Cn; auto. }
    apply Z.eqb_eq in Cn.
    assert (D0 : DOM (tr s) 0 = 0) by apply (cs_TB _ H).
    destruct (first_un_ok (tr s) cls D0 (CS_clause s n cls H Hc)) as (o & Eo & Po).
    destruct o as [l|].
    2: { apply SKIP.
         - right. destruct (CS_ci _ H n cls Hc) as [(_ & _ & X)|(X & _)]; lia.
         - intro f. rewrite STEP, Eo. auto. }
    destruct Po as (Hl & Ul').
    assert (Nn : num s n <= 1) by (apply (ui_le _ _ (CS_ui _ H)); auto; rewrite Ul; left; auto).
    assert (Rl : lrange (tr s) l) by (eapply CS_clause; eauto).
    pose proof (unit_others s n cls l H Hc Cn Nn Hl Ul') as OTH.
    set (s2 := set_units s1 (units s + 1)).
    pose proof (TB_noconf _ _ _ (cs_TB _ H) Cf) as HB.
    assert (J2 : JC [n] s2).
    { destruct (cs_J _ H) as (HS & HC & HU). split; [destruct HS; split; auto|].
      split; [exact HC|]. destruct HU as [u1 u2 u3 u4]. split; simpl.
      - intros m Hm. apply u1. rewrite Ul; right; auto.
      - intros m Hm. apply u2. rewrite Ul; right; auto.
      - intros _ m c' Hm Cm. destruct (u3 Cf m c' Hm Cm) as [Y|(Y1 & [Y2|[]])]; auto.
        right. split; auto. rewrite Ul in Y2. destruct Y2; auto.
      - congruence. }
    destruct (reduce_theory_ok [n] c s2 l) as (s3 & E3 & J3 & F3 & X3 & N3 & D3 & B3 & T3 & M3 & R3 & A3); auto.
    { apply (cs_TD _ H). }
    { apply (cs_lev _ H). }
    { apply lit_un_iff; auto. }
    change (tr s2) with (tr s) in *. change (level s2) with (level s) in *.
    assert (Cl3 : cl s3 = cl s) by apply (fr_cl _ _ F3).
    assert (Lv3 : level s3 = level s) by apply (fr_level _ _ F3).
    assert (H3 : CS s3).
    { destruct J3 as (HS & HC & HU). split; auto.
      - split; auto. split; auto. destruct HU as [u1 u2 u3 u4]. split; auto.
        intros Cf3 m c' Hm Cm. destruct (u3 Cf3 m c' Hm Cm) as [Y|(Y1 & [Y2|[<-|[]]])]; auto.
        exfalso. rewrite Cl3 in Hm. rewrite Hc in Hm. injection Hm as <-.
        destruct (HC n cls) as [(_ & Z2 & _)|(Z1 & _)]; [rewrite Cl3; auto| |lia].
        rewrite (Z2 l Hl) in T3; discriminate.
      - rewrite Lv3. eapply TB_weaken; eauto.
      - rewrite Lv3. apply (cs_lev _ H).
      - rewrite Lv3, Cl3. apply (CLO_ext (tr s)); auto. apply (cs_clo _ H). }
    destruct (IHu (unass (tr s3))) with (s := s3) as (N & s' & E & P1 & P2 & P3 & P4 & P5 & P6 & P7 & P8); auto.
    { lia. }
    exists (S N), s'. split.
    { intros [|f] Hf; [lia|]. rewrite STEP, Eo. cbn [bind]. fold s2. rewrite E3. cbn [bind]. apply E; lia. }
    rewrite Cl3, Lv3 in *.
    split; auto. split.
    { apply (fru_trans s s3); auto. destruct F3; split; auto. }
    split; [eapply ext_trans; eauto|]. split; [apply (newlev_trans _ (tr s3)); auto|].
    split; [lia|]. split; auto. split.
    + intros a La Ha Aa. apply P7; auto.
      { intros v Hv. rewrite (ext_dom _ _ X3). apply La. rewrite <- (ext_nv _ _ X3); auto. }
      apply A3; auto.
      destruct (Ha cls) as (x & Hx & Tx); [eapply nth_error_In; eauto|].
      destruct (lit_eq_dec x l) as [->|Nx]; auto. exfalso.
      apply (agree_false a (tr s) x); auto. eapply CS_clause; eauto.
    + intros ND HR. apply P8; auto. apply R3; auto.
      eapply unit_pre_reason; eauto. apply ND. eapply nth_error_In; eauto.
Qed.
