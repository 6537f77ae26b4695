(** * Chronological backtracking *)

From Coq Require Import Floats.SpecFloat.
From Verif Require Import Spec Outcome State ModelCounter ModelHeur ModelLearn ModelWatch
  ModelSearch Base Trail Reduce Counter CounterUndo Propagate Choose Scores.

(** ** The invariant depends on few fields *)

Record cs_eq (s s' : state) : Prop := mkCseq {
  ce_tr : tr s' = tr s; ce_cl : cl s' = cl s; ce_num : num s' = num s; ce_clev : clev s' = clev s;
  ce_rec : rec s' = rec s; ce_ulist : ulist s' = ulist s; ce_conf : conflict s' = conflict s;
  ce_confcl : confcl s' = confcl s; ce_level : level s' = level s
}.

Lemma CS_eq s s' : cs_eq s s' -> CS s -> CS s'.
Proof.
  intros [E1 E2 E3 E4 E5 E6 E7 E8 E9] [([a1 a2 a3 a4] & HC & [b1 b2 b3 b4]) HB HD HL HO].
  split.
  - split; [split; rewrite ?E1, ?E2, ?E5; auto|]. split.
    + unfold CI. rewrite E1, E2, E3, E4. auto.
    + split; rewrite ?E2, ?E3, ?E4, ?E6, ?E7, ?E8; auto.
  - rewrite E1, E7, E9; auto.
  - rewrite E1; auto.
  - rewrite E9; auto.
  - rewrite E1, E2, E9; auto.
Qed.

Ltac conj := repeat match goal with |- _ /\ _ => split end.

Definition total (t : trail) : Prop := forall v d, range t v d -> ASG t v d <> Un.

Lemma CS_done s : CS s -> conflict s = false -> ulist s = [] ->
  (forall n c, nth_error (cl s) n = Some c -> clev s n = -1 -> countb (lit_un (tr s)) c = 0%nat) ->
  all_sat s.
Proof.
  intros H Cf Ul Z c Hc. apply In_nth_error in Hc. destruct Hc as (n & Hn).
  destruct (CS_ci _ H n c Hn) as [(C1 & C2 & C3)|(_ & _ & (l & L1 & L2 & _) & _)]; [|eauto].
  exfalso. pose proof (Z n c Hn C1).
  destruct (ui_two _ _ (CS_ui _ H) Cf n c Hn C1) as [X|(X & _)]; lia.
Qed.

Lemma total_done s : CS s -> conflict s = false -> ulist s = [] -> total (tr s) -> all_sat s.
Proof.
  intros H Cf Ul T. apply CS_done; auto. intros n c Hn _. apply countb_zero. intros l Hl.
  apply lit_un_false_iff. apply T. eapply CS_clause; eauto.
Qed.

(** What a heuristic returns: nothing, and then all clauses are satisfied; or an unassigned
    literal. *)
Definition choice_ok (c : cfg) (s : state) (l : lit) : Prop :=
  (lvar l = -1 /\ all_sat s /\ (heur c <> Lazy -> total (tr s))) \/
  (lvar l <> -1 /\ lrange (tr s) l /\ ASG (tr s) (lvar l) (lval l) = Un).

Lemma open_range t v d : open_atom t v d -> range t v d /\ v <> -1 /\ ASG t v d = Un.
Proof. intros (R & _ & U). split; auto. split; auto. destruct R; lia. Qed.

Lemma choose_nc_ok c s :
  CS s -> conflict s = false -> ulist s = [] -> scores_ok s ->
  exists r l, choose_nc c s = Ok (set_uclause s r, l) /\ choice_ok c s l.
Proof.
  intros H Cf Ul S.
  assert (HB := TB_noconf _ _ _ (cs_TB _ H) Cf).
  assert (N : 0 <= NV (tr s)) by apply HB. assert (D : DOM (tr s) 0 = 0) by apply HB.
  assert (DONE : (forall v d, ~ open_atom (tr s) v d) -> all_sat s /\ total (tr s)).
  { intro X. assert (T : total (tr s)) by (exact (none_open_total _ _ HB X)).
    split; auto. apply total_done; auto. }
  unfold choose_nc, choice_ok. destruct (heur c).
  - eexists RDec, _. split; [reflexivity|].
    destruct (choose_bk_spec s N D) as [(E & X)|(O & _)].
    + left. destruct (DONE X); auto.
    + right. apply open_range in O. tauto.
  - eexists RDec, _. split; [reflexivity|].
    destruct (choose_vsids_spec s N D S) as [(E & X)|(O & _)].
    + left. destruct (DONE X); auto.
    + right. apply open_range in O. tauto.
  - destruct (choose_lazy_ok s D (si_ok _ (CS_si _ H))) as (l & -> & P).
    exists (uclause s), l. split; [destruct s; reflexivity|].
    destruct P as [(E & X)|(R & U & _)].
    + left. split; auto. split; [apply CS_done; auto|congruence].
    + right. split; [destruct R; lia|]. split; auto. apply lit_un_iff; auto.
  - eexists RDec, _. split; [reflexivity|].
    destruct (choose_vsids_pos_spec s N D S) as [(E & X)|(O & _)].
    + left. destruct (DONE X); auto.
    + right. apply open_range in O. tauto.
Qed.

Lemma choose_ch_ok c s :
  heur c = BK \/ heur c = Lazy ->
  CS s -> conflict s = false -> ulist s = [] ->
  exists r l, choose_ch c s = Ok (set_uclause s r, l) /\ choice_ok c s l.
Proof.
  intros Hc H Cf Ul.
  assert (HB := TB_noconf _ _ _ (cs_TB _ H) Cf).
  assert (N : 0 <= NV (tr s)) by apply HB. assert (D : DOM (tr s) 0 = 0) by apply HB.
  unfold choose_ch, choice_ok. destruct Hc as [Hc|Hc]; rewrite Hc.
  - eexists RDec, _. split; [reflexivity|].
    destruct (choose_bk_spec s N D) as [(E & X)|(O & _)].
    + left. assert (T : total (tr s)) by (exact (none_open_total _ _ HB X)).
      split; auto. split; auto. apply total_done; auto.
    + right. apply open_range in O. tauto.
  - destruct (choose_lazy_ok s D (si_ok _ (CS_si _ H))) as (l & -> & P).
    exists (uclause s), l. split; [destruct s; reflexivity|].
    destruct P as [(E & X)|(R & U & _)].
    + left. split; auto. split; [apply CS_done; auto|congruence].
    + right. split; [destruct R; lia|]. split; auto. apply lit_un_iff; auto.
Qed.

(** ** Deciding *)

Lemma CS_clo_next s : CS s -> conflict s = false -> ulist s = [] ->
  CLO (tr s) (cl s) (level s + 1).
Proof.
  intros H Cf Ul j c J Hc. destruct (Z.eq_dec j (level s)) as [->|Nj].
  2: { apply (cs_clo _ H); auto; lia. }
  pose proof Hc as Hc'. apply In_nth_error in Hc. destruct Hc as (n & Hn).
  destruct (CS_ci _ H n c Hn) as [(C1 & C2 & C3)|(C1 & _ & (l & L1 & L2 & L3) & _)].
  - right. destruct (ui_two _ _ (CS_ui _ H) Cf n c Hn C1) as [X|(_ & [X|[]])]; [|rewrite Ul in X; destruct X].
    assert (countb (lit_un (tr s)) c <= countb (notfalse (tr s) (level s)) c)%nat; [|lia].
    apply countb_le. intros l _ U. unfold notfalse.
    destruct (lit_cases (tr s) l) as [(_ & X1 & _)|[(_ & _ & X1)|(_ & X1 & _)]]; try congruence.
    rewrite X1; auto.
  - left. exists l. split; auto. split; auto.
    apply (tb_as _ _ _ (cs_TB _ H)); [eapply CS_clause; eauto|]. apply lit_true_as; auto.
Qed.

(** The state in which a decision is carried out. *)
Definition at_next (s : state) (r : reason) (m : Z) : state :=
  set_level (set_decisions (set_uclause s r) m) (level s + 1).

Lemma decide_ok c s l r m :
  CS s -> conflict s = false -> ulist s = [] ->
  lrange (tr s) l -> ASG (tr s) (lvar l) (lval l) = Un ->
  exists s', reduce_theory c (at_next s r m) l = Ok s' /\ CS s' /\ level s' = level s + 1 /\
    fr (at_next s r m) s' /\ ext (tr s) (tr s') /\ newlev (tr s) (level s + 1) (tr s') /\
    (unass (tr s') < unass (tr s))%nat /\ lit_true (tr s') l = true /\
    (r = RDec -> TR (tr s) (cl s) -> TR (tr s') (cl s')) /\
    (forall a, legalT a (tr s) -> agree a (tr s) -> lit_holds a l -> agree a (tr s')).
Proof.
  intros H Cf Ul R U.
  assert (HB := TB_noconf _ _ _ (cs_TB _ H) Cf).
  assert (L0 := cs_lev _ H).
  destruct (reduce_theory_ok [] c (at_next s r m) l)
    as (s' & E & J & F & X & N & D & B & T & M & RR & A); auto.
  - destruct (cs_J _ H) as ([] & HC & []). split; [split; auto|]. split; [exact HC|split; auto].
  - simpl. eapply TB_level; eauto. lia.
  - apply (cs_TD _ H).
  - simpl; lia.
  - simpl in *. exists s'. split; auto.
    assert (Lv : level s' = level s + 1) by apply (fr_level _ _ F).
    assert (Cl : cl s' = cl s) by apply (fr_cl _ _ F).
    assert (CS s').
    { split; auto.
      - rewrite Lv. auto.
      - lia.
      - rewrite Lv, Cl. apply (CLO_ext (tr s)); auto. apply CS_clo_next; auto. }
    split; auto. split; auto. split; auto. split; auto. split; auto. split; auto. split; auto.
    split; auto. intros -> TR0. rewrite Cl. apply RR; auto. split; [lia|].
    intros g Hg. apply In_nth_error in Hg. destruct Hg as (i & Hi).
    destruct (td_dst _ (cs_TD _ H) _ _ Hi) as (Rg & Tg & _).
    assert (0 <= llev (tr s) g <= level s); [|lia].
    apply HB; auto. apply lit_true_as; auto.
Qed.

(** ** Assignments up to a level *)

Record upto (t : trail) (k : Z) (t' : trail) : Prop := mkUpto {
  up_nv : NV t' = NV t;
  up_dom : DOM t' = DOM t;
  up_gone : forall v d, range t v d -> k < ALEV t v d -> ASG t' v d = Un /\ ALEV t' v d = -10;
  up_kept : forall v d, range t v d -> ALEV t v d <= k ->
    ASG t' v d = ASG t v d /\ ALEV t' v d = ALEV t v d
}.

Lemma cut_upto t k t' : cut t k t' -> upto t k t'.
Proof.
  intros C. split; try apply C.
  - intros v d R L. destruct (cut_gone _ _ _ C v d R L) as (X & Y & _). auto.
  - intros v d R L. destruct (cut_kept _ _ _ C v d R L) as (X & Y & _). auto.
Qed.

Lemma ext_upto t t' k lev ex t'' :
  ext t t' -> newlev t lev t' -> k < lev -> TB t lev ex -> -10 <= k -> TB t' lev ex ->
  upto t' k t'' -> upto t k t''.
Proof.
  intros E N K HB K0 HB' [U1 U2 U3 U4].
  assert (RR : forall v d, range t v d -> range t' v d) by (intros; apply (ext_range t t'); auto).
  split.
  - rewrite U1; apply E.
  - rewrite U2; apply E.
  - intros v d R L. destruct (ASG t v d) eqn:A.
    + rewrite (tb_un _ _ _ HB v d R A) in L. lia.
    + apply U3; auto. rewrite (ext_lev _ _ E); auto; congruence.
    + apply U3; auto. rewrite (ext_lev _ _ E); auto; congruence.
  - intros v d R L. destruct (ASG t v d) eqn:A.
    + rewrite (tb_un _ _ _ HB v d R A). destruct (ASG t' v d) eqn:A'.
      * pose proof (tb_un _ _ _ HB' v d (RR v d R) A') as A10. rewrite <- A10, <- A'. apply U4; auto. lia.
      * apply U3; auto. rewrite (N v d A); auto; congruence.
      * apply U3; auto. rewrite (N v d A); auto; congruence.
    + rewrite <- A, <- (ext_lev _ _ E), <- (ext_asg _ _ E) by congruence. apply U4; auto.
      rewrite (ext_lev _ _ E); auto; congruence.
    + rewrite <- A, <- (ext_lev _ _ E), <- (ext_asg _ _ E) by congruence. apply U4; auto.
      rewrite (ext_lev _ _ E); auto; congruence.
Qed.

Lemma upto_trans t k k' t' t'' : upto t k t' -> upto t' k' t'' -> k' <= k -> -10 <= k' -> upto t k' t''.
Proof.
  intros [U1 U2 U3 U4] [V1 V2 V3 V4] K K0.
  assert (RR : forall v d, range t v d -> range t' v d).
  { intros v d [? ?]. split; congruence. }
  split; try congruence.
  - intros v d R L. destruct (Z.le_gt_cases (ALEV t v d) k) as [L'|L'].
    + destruct (U4 v d R L') as (A & B). apply V3; auto. lia.
    + destruct (U3 v d R) as (A & B); [lia|]. rewrite <- A, <- B. apply V4; auto. lia.
  - intros v d R L. destruct (U4 v d R) as (A & B); [lia|]. rewrite <- A, <- B. apply V4; auto. lia.
Qed.

(** Nothing above [k]: the same assignment. *)
Lemma upto_same t k t' lev ex : TB t lev ex -> lev <= k -> 0 <= lev -> upto t k t' ->
  forall v d, range t v d -> ASG t' v d = ASG t v d.
Proof.
  intros HB L L0 U v d R. apply (up_kept _ _ _ U v d R).
  destruct (ASG t v d) eqn:A; [rewrite (tb_un _ _ _ HB v d R A); lia| |];
  assert (0 <= ALEV t v d <= lev) by (apply HB; auto; congruence); lia.
Qed.

Lemma unass_same t t' : NV t' = NV t -> DOM t' = DOM t ->
  (forall v d, range t v d -> ASG t' v d = ASG t v d) -> unass t' = unass t.
Proof.
  intros N D H. unfold unass. rewrite (atoms_from_ext t t') by auto.
  apply countb_ext. intros (v, d) Hi. apply in_atoms1 in Hi. simpl. rewrite H; auto.
Qed.

Lemma agree_same a t t' : NV t' = NV t -> DOM t' = DOM t ->
  (forall v d, range t v d -> ASG t' v d = ASG t v d) -> agree a t -> agree a t'.
Proof.
  intros N D H A v d R. assert (R' : range t v d) by (destruct R; split; congruence).
  rewrite H; auto.
Qed.

(** No assignment of the domains satisfies the clauses and agrees with [t]. *)
Definition dead (t : trail) (cls : list clause) : Prop :=
  forall a, legalT a t -> (forall c, In c cls -> clause_holds a c) -> agree a t -> False.

Lemma conflict_false s : CS s -> conflict s = true ->
  exists c, nth_error (cl s) (confcl s) = Some c /\ forall l, In l c -> lit_false (tr s) l = true.
Proof.
  intros H Cf. destruct (ui_conf _ _ (CS_ui _ H) Cf) as (K1 & K2 & K3).
  destruct (lt_nth_error _ _ K1) as (c & Hc). exists c. split; auto. intros l Hl.
  destruct (CS_ci _ H _ c Hc) as [(C1 & C2 & C3)|(C1 & _)]; [|lia].
  assert (Z : countb (lit_un (tr s)) c = 0%nat) by lia. rewrite countb_zero in Z.
  specialize (Z l Hl). specialize (C2 l Hl).
  destruct (lit_cases (tr s) l) as [X|[X|X]]; intuition congruence.
Qed.

Lemma conflict_dead s : CS s -> conflict s = true -> dead (tr s) (cl s).
Proof.
  intros H Cf a La Ha Aa. destruct (conflict_false s H Cf) as (c & Hc & F).
  destruct (Ha c) as (l & Hl & Tl); [eapply nth_error_In; eauto|].
  apply (agree_false a (tr s) l); auto. eapply CS_clause; eauto.
Qed.

(** ** The search *)

Definition sat_post (c : cfg) (s0 s : state) : Prop :=
  CS s /\ conflict s = false /\ all_sat s /\ (heur c <> Lazy -> total (tr s)) /\
  cl s = cl s0 /\ NV (tr s) = NV (tr s0) /\ DOM (tr s) = DOM (tr s0).

Definition unsat_post (s0 : state) (lev : Z) (s : state) : Prop :=
  dead (tr s0) (cl s0) /\ cl s = cl s0 /\ conflict s = false /\ ulist s = [] /\
  level s = lev - 1 /\ upto (tr s0) (lev - 1) (tr s) /\ (1 <= lev -> CS s).

Definition ch_post (c : cfg) (clk : nat -> bool) (s0 : state) (lev : Z) (r : verdict * state) : Prop :=
  let (v, s) := r in
  restarts s = restarts s0 /\ (tick s0 <= tick s)%nat /\ cl s = cl s0 /\ NV (tr s) = NV (tr s0) /\
  match v with
  | SAT => sat_post c s0 s
  | TIMEOUT => exists k, (tick s0 <= k)%nat /\ clk k = true
  | UNSAT => unsat_post s0 lev s
  end.

Lemma legalT_dom a t t' : NV t' = NV t -> DOM t' = DOM t -> legalT a t -> legalT a t'.
Proof. intros N D L v Hv. rewrite D. apply L. congruence. Qed.

Lemma chrono_ok c clk s lev :
  heur c = BK \/ heur c = Lazy -> CS s -> level s = lev ->
  exists N r, (forall fuel, (N <= fuel)%nat -> chrono fuel c clk s lev = Ok r) /\
    ch_post c clk s lev r.
Proof.
  intro Hh. remember (unass (tr s)) as un eqn:Eu. revert s lev Eu.
  induction un as [un IH] using lt_wf_ind. intros s lev Eu H Lv.
  set (s1 := snd (check_time clk (set_level s lev))).
  assert (H1 : CS s1) by (apply (CS_eq s); [split; auto|auto]).
  destruct (clk (tick s)) eqn:K1.
  { exists 1%nat, (TIMEOUT, s1). split.
    - intros [|f] Hf; [lia|]. simpl. rewrite K1. reflexivity.
    - simpl. repeat split; auto. exists (tick s). auto. }
  (* propagation *)
  assert (UP : exists N s2, (forall fuel, (N <= fuel)%nat ->
       match ulist s1 with [] => Ok s1 | _ => unit_propagation fuel c s1 end = Ok s2) /\ up_post c s1 s2).
  { destruct (ulist s1) eqn:Ul.
    - exists 0%nat, s1. split; auto. split; auto. split; [apply fru_refl|]. split; [apply ext_refl|].
      split; [apply newlev_refl|]. split; auto. split; auto. split; auto. intros a _ _ A; auto.
    - apply unit_propagation_ok; auto. }
  destruct UP as (N1 & s2 & E2 & H2 & F2 & X2 & W2 & M2 & C2 & A2 & _).
  set (s3 := snd (check_time clk s2)).
  assert (H3 : CS s3) by (apply (CS_eq s2); [split; auto|auto]).
  assert (STEP : forall f, (N1 <= S f)%nat -> chrono (S f) c clk s lev =
     if clk (tick s2) then Ok (TIMEOUT, s3)
     else if conflict s3 then
          let s := set_backtracks s3 (backtracks s3 + 1) in
          let s := set_conflict s false in
          let* s := undo_theory c s (level s - 1) in
          let s := set_ulist s [] in
          Ok (UNSAT, set_level s (level s - 1))
        else
          let* q := choose_ch c s3 in
          let (s, l) := q in
          if lvar l =? -1 then Ok (SAT, s)
          else
            let s := set_decisions s (decisions s + 1) in
            let s := set_level s (level s + 1) in
            let* s := reduce_theory c s l in
            let* res := chrono f c clk s (level s) in
            let (v, s) := res in
            match v with
            | SAT => Ok (SAT, s)
            | TIMEOUT => Ok (TIMEOUT, s)
            | UNSAT =>
                if 0 <=? level s then
                  let* s := reduce_theory c s (neg l) in
                  chrono f c clk s (level s)
                else Ok (UNSAT, s)
            end).
  { intros f Hf. cbn [chrono]. unfold check_time at 1. cbn [tick set_level]. rewrite K1.
    change (set_tick (set_level s lev) (S (tick s))) with s1.
    rewrite (E2 (S f) Hf). cbn [bind]. unfold check_time. destruct (clk (tick s2)); reflexivity. }
  assert (T12 : tick s2 = S (tick s)) by apply (fu_tick _ _ F2).
  assert (Cl2 : cl s2 = cl s) by apply (fu_cl _ _ F2).
  assert (Lv2 : level s2 = lev) by apply (fu_level _ _ F2).
  assert (Rs2 : restarts s2 = restarts s) by apply (fu_restarts _ _ F2).
  change (tr s1) with (tr s) in *. change (level s1) with lev in *. change (cl s1) with (cl s) in *.
  assert (NV2 : NV (tr s2) = NV (tr s)) by apply X2.
  assert (DM2 : DOM (tr s2) = DOM (tr s)) by apply X2.
  pose proof (cs_lev _ H) as L0. rewrite Lv in L0.
  assert (B1 : TB (tr s) lev (fun _ => True)).
  { rewrite <- Lv. eapply TB_weaken; [apply (cs_TB _ H)|auto]. }
  assert (B2 : TB (tr s2) lev (fun _ => True)).
  { rewrite <- Lv2. eapply TB_weaken; [apply (cs_TB _ H2)|auto]. }
  destruct (clk (tick s2)) eqn:K2.
  { exists (S N1), (TIMEOUT, s3). split.
    - intros [|f] Hf; [lia|]. rewrite STEP by lia. auto.
    - simpl. repeat split; auto; try lia. exists (tick s2). split; auto. lia. }
  destruct (conflict s3) eqn:Cf.
  - (* conflict *)
    set (s4 := set_conflict (set_backtracks s3 (backtracks s3 + 1)) false).
    assert (S4 : SI s4) by (destruct (CS_si _ H3); split; auto).
    assert (C4 : CI s4) by (exact (CS_ci _ H3)).
    destruct (undo_theory_ok c s4 (level s4 - 1) (level s4) (fun _ => conflict s3 = true) S4 C4)
      as (t' & x & y & z & E5 & CU & CI5).
    { exact (cs_TB _ H3). }
    { exact (cs_TD _ H3). }
    { simpl. rewrite Lv2. lia. }
    set (s5 := set_cnt (set_clev (set_num (set_tr s4 t') x) y) z) in *.
    set (s6 := set_level (set_ulist s5 []) (level (set_ulist s5 []) - 1)).
    exists (S N1), (UNSAT, s6). split.
    { intros [|f] Hf; [lia|]. rewrite STEP by lia.
      cbv zeta. fold s4. rewrite E5. reflexivity. }
    assert (UT : upto (tr s) (lev - 1) t').
    { apply (ext_upto (tr s) (tr s2) (lev - 1) lev (fun _ => True)); auto; try lia.
      apply cut_upto. rewrite <- Lv2. exact CU. }
    simpl. repeat (split; [auto; try lia; try congruence; fail|]).
    split; [transitivity (NV (tr s2)); [apply CU|auto]|].
    split.
    { intros a La Ha Aa. apply (conflict_dead s2 H2 Cf a).
      - apply (legalT_dom a (tr s)); auto.
      - rewrite Cl2; auto.
      - apply A2; auto. }
    split; auto. split; auto. split; auto. split; [simpl; rewrite Lv2; auto|]. split; auto.
    intro L1.
    assert (TB5 : TB t' (lev - 1) (fun _ => conflict s6 = true)).
    { apply (cut_TB (tr s2) (lev - 1) t' lev (fun _ => conflict s3 = true)); auto.
      - rewrite <- Lv2. apply (cs_TB _ H2).
      - rewrite <- Lv2. exact CU.
      - lia. }
    assert (CLO5 : CLO t' (cl s2) (lev - 1)).
    { apply (CLO_cut (tr s2) (lev - 1) t' (cl s2) lev).
      - rewrite <- Lv2. exact CU.
      - apply (si_ok _ (CS_si _ H2)).
      - lia.
      - rewrite <- Lv2. apply (cs_clo _ H2). }
    assert (W5 : cls_ok t' (cl s2)).
    { intros k Hk l Hl. apply (cut_range (tr s2) (level s4 - 1)); auto. apply (si_ok _ (CS_si _ H2) k); auto. }
    split.
    + split; [destruct S4; split; auto|]. split; [exact CI5|].
      split; simpl; try (intros; tauto); try discriminate.
      intros _ n k Hn Cn. left. destruct (CI5 n k Hn) as [(_ & Q2 & Q3)|(Q1 & _)]; [|simpl in Q1; lia].
      simpl in Q2, Q3. rewrite Q3.
      assert (Hk : In k (cl s2)) by (eapply nth_error_In; eauto).
      destruct (clo_cut (tr s2) (lev - 1) t' (lev - 1) k) as [(w & Hw & Tw & _)|T2].
      * rewrite <- Lv2; exact CU.
      * intros l Hl. apply (si_ok _ (CS_si _ H2) k); auto.
      * lia.
      * apply (cs_clo _ H2); auto. lia.
      * rewrite (Q2 w Hw) in Tw. discriminate.
      * assert (countb (notfalse t' (lev - 1)) k <= countb (lit_un t') k)%nat; [|lia].
        apply countb_le. intros l Hl Fl. unfold notfalse in Fl.
        destruct (lit_cases t' l) as [(X & _)|[(_ & X & _)|(_ & X & X')]]; auto.
        -- rewrite (Q2 l Hl) in X; discriminate.
        -- exfalso. rewrite X' in Fl. simpl in Fl. apply negb_true_iff in Fl. apply Z.leb_gt in Fl.
           assert (0 <= llev t' l <= lev - 1); [|lia].
           apply TB5; [apply (W5 k); auto|]. apply lit_false_as; auto.
    + simpl. rewrite Lv2. exact TB5.
    + simpl. eapply cut_TD; [apply (cs_TB _ H2)|apply (cs_TD _ H2)|exact CU|simpl; lia].
    + simpl. rewrite Lv2. lia.
    + simpl. rewrite Lv2. exact CLO5.
  - (* decision *)
    change (conflict s3) with (conflict s2) in Cf.
    assert (Ul : ulist s3 = []) by (destruct C2 as [C2|C2]; [congruence|exact C2]).
    destruct (choose_ch_ok c s3 Hh H3 Cf Ul) as (r & l & Ech & P).
    set (s4 := set_uclause s3 r) in *.
    assert (H4 : CS s4) by (apply (CS_eq s3); [split; auto|auto]).
    destruct P as [(Pl & AS & TT)|(Pl & Rl & Ul')].
    { exists (S N1), (SAT, s4). split.
      - intros [|f] Hf; [lia|]. rewrite STEP by lia. rewrite Ech. cbn [bind].
        rewrite Pl. reflexivity.
      - unfold ch_post, sat_post. conj; auto; simpl; lia. }
    assert (Pl' : (lvar l =? -1) = false) by (apply Z.eqb_neq; auto).
    destruct (decide_ok c s3 l r (decisions s3 + 1) H3 Cf Ul Rl Ul')
      as (s5 & E5 & H5 & Lv5 & F5 & X5 & W5 & M5 & T5 & _ & A5).
    change (level s3) with (level s2) in *. change (tr s3) with (tr s2) in *. rewrite Lv2 in *.
    assert (Cl5 : cl s5 = cl s) by (rewrite (fr_cl _ _ F5); auto).
    assert (Tk5 : tick s5 = S (tick s2)) by apply (fr_tick _ _ F5).
    destruct (IH (unass (tr s5))) with (s := s5) (lev := lev + 1) as (N2 & (v & s6) & E6 & P6); auto; [lia|].
    destruct P6 as (R6 & K6 & CL6 & NV6 & P6).
    assert (R6' : restarts s6 = restarts s).
    { rewrite R6. rewrite (fr_restarts _ _ F5). auto. }
    destruct v.
    + (* SAT *)
      exists (S (N1 + N2)), (SAT, s6). split.
      { intros [|f] Hf; [lia|]. rewrite STEP by lia. rewrite Ech. cbn [bind]. rewrite Pl'.
        change (set_level (set_decisions s4 (decisions s4 + 1)) (level (set_decisions s4 (decisions s4 + 1)) + 1))
          with (at_next s3 r (decisions s3 + 1)). rewrite E5. cbn [bind]. rewrite Lv5, E6 by lia. reflexivity. }
      destruct P6 as (Q1 & Q2 & Q3 & Q4 & Q5 & Q6 & Q7).
      pose proof (ext_nv _ _ X5). pose proof (ext_dom _ _ X5).
      simpl. repeat (split; [auto; try lia; try congruence; fail|]). congruence.
    + (* TIMEOUT *)
      exists (S (N1 + N2)), (TIMEOUT, s6). split.
      { intros [|f] Hf; [lia|]. rewrite STEP by lia. rewrite Ech. cbn [bind]. rewrite Pl'.
        change (set_level (set_decisions s4 (decisions s4 + 1)) (level (set_decisions s4 (decisions s4 + 1)) + 1))
          with (at_next s3 r (decisions s3 + 1)). rewrite E5. cbn [bind]. rewrite Lv5, E6 by lia. reflexivity. }
      destruct P6 as (k & Q1 & Q2). pose proof (ext_nv _ _ X5).
      simpl. repeat (split; [auto; try lia; try congruence; fail|]). exists k. split; auto. lia.
    + (* UNSAT: try the other side *)
      destruct P6 as (D6 & _ & Cf6 & Ul6 & Lv6 & U6 & H6).
      replace (lev + 1 - 1) with lev in * by lia.
      specialize (H6 ltac:(lia)).
      assert (UT : upto (tr s2) lev (tr s6)).
      { apply (ext_upto (tr s2) (tr s5) lev (lev + 1) (fun _ => True)); auto; try lia.
        - apply (TB_level (tr s2) lev); auto; try lia. rewrite <- Lv2. apply (TB_noconf _ _ (conflict s2)); auto. apply (cs_TB _ H2).
        - rewrite <- Lv5. eapply TB_weaken; [apply (cs_TB _ H5)|auto]. }
      assert (SM : forall v d, range (tr s2) v d -> ASG (tr s6) v d = ASG (tr s2) v d).
      { eapply upto_same; eauto. lia. }
      assert (NV62 : NV (tr s6) = NV (tr s2)) by apply UT.
      assert (DM62 : DOM (tr s6) = DOM (tr s2)) by apply UT.
      destruct (reduce_theory_ok [] c s6 (neg l))
        as (s7 & E7 & J7 & F7 & X7 & W7 & D7 & B7 & T7 & M7 & _ & A7).
      { apply (cs_J _ H6). }
      { apply (TB_noconf _ _ (conflict s6)); auto. apply (cs_TB _ H6). }
      { apply (cs_TD _ H6). }
      { lia. }
      { unfold lrange, range. simpl. rewrite NV62, DM62. exact Rl. }
      { simpl. rewrite SM; auto. }
      assert (Lv7 : level s7 = lev) by (rewrite (fr_level _ _ F7); auto).
      assert (Cl7 : cl s7 = cl s) by (rewrite (fr_cl _ _ F7); congruence).
      assert (H7 : CS s7).
      { split; auto.
        - rewrite (fr_level _ _ F7). auto.
        - lia.
        - rewrite (fr_level _ _ F7), (fr_cl _ _ F7). apply (CLO_ext (tr s6)); auto. apply (cs_clo _ H6). }
      assert (Un6 : unass (tr s6) = unass (tr s2)) by (apply unass_same; auto).
      destruct (IH (unass (tr s7))) with (s := s7) (lev := lev) as (N3 & (v & s8) & E8 & P8); auto; [lia|].
      exists (S (N1 + N2 + N3)), (v, s8). split.
      { intros [|f] Hf; [lia|]. rewrite STEP by lia. rewrite Ech. cbn [bind]. rewrite Pl'.
        change (set_level (set_decisions s4 (decisions s4 + 1)) (level (set_decisions s4 (decisions s4 + 1)) + 1))
          with (at_next s3 r (decisions s3 + 1)). rewrite E5. cbn [bind]. rewrite Lv5, E6 by lia. cbn [bind].
        rewrite Lv6. destruct (Z.leb_spec 0 lev); [|lia]. rewrite E7. cbn [bind]. rewrite Lv7. apply E8. lia. }
      destruct P8 as (R8 & K8 & CL8 & NV8 & P8).
      assert (restarts s8 = restarts s) by (rewrite R8, (fr_restarts _ _ F7); auto).
      assert (tick s7 = tick s6) by apply (fr_tick _ _ F7).
      pose proof (ext_nv _ _ X7) as NV7. pose proof (ext_dom _ _ X7) as DM7.
      simpl. split; auto. split; [lia|]. split; [congruence|]. split; [congruence|].
      destruct v.
      * destruct P8 as (Q1 & Q2 & Q3 & Q4 & Q5 & Q6 & Q7).
        repeat (split; [auto; try lia; try congruence; fail|]). congruence.
      * destruct P8 as (k & Q1 & Q2). exists k. split; auto. lia.
      * destruct P8 as (D8 & _ & Cf8 & Ul8 & Lv8 & U8 & HH8).
        split.
        { intros a La Ha Aa.
          assert (Aa2 : agree a (tr s2)) by (apply A2; auto).
          assert (La2 : legalT a (tr s2)) by (apply (legalT_dom a (tr s)); auto).
          destruct (lit_holds_dec a l) as [Hl|Hl].
          - apply (D6 a).
            + apply (legalT_dom a (tr s2)); auto; apply X5.
            + rewrite Cl5; auto.
            + apply A5; auto.
          - assert (La6 : legalT a (tr s6)) by (apply (legalT_dom a (tr s2)); auto).
            apply (D8 a).
            + apply (legalT_dom a (tr s6)); auto.
            + rewrite Cl7; auto.
            + apply A7; auto; [apply (agree_same a (tr s2)); auto|]. apply lit_holds_neg; auto. }
        split; [congruence|]. split; auto. split; auto. split; auto. split; auto.
        apply (ext_upto (tr s) (tr s2) (lev - 1) lev (fun _ => True)); auto; try lia.
        assert (U68 : upto (tr s6) (lev - 1) (tr s8)).
        { apply (ext_upto (tr s6) (tr s7) (lev - 1) lev (fun _ => True)); auto; try lia.
          - rewrite <- Lv6. auto.
          - rewrite <- Lv6. eapply TB_weaken; [apply (cs_TB _ H6)|auto].
          - rewrite <- Lv7. eapply TB_weaken; [apply (cs_TB _ H7)|auto]. }
        eapply upto_trans; eauto; lia.
Qed.
