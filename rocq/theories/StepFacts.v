(** * Proofs of the theorems about single steps of the search *)

From Coq Require Import SpecFloat Sorted.
From Verif Require Import Spec WideSpec Outcome State ModelCounter ModelHeur ModelLearn ModelWatch
  ModelSearch ModelBuild Base Trail Reduce Counter CounterUndo Propagate Choose Scores Chrono Init
  Analyze Learn Cdcl Nc Observe Watch WatchProp Wl SolveWl Solve Fuel Counts Steps Reach StepSpec.

Lemma true_iff s l : lit_true (tr s) l = true <-> is_true s l.
Proof. unfold lit_true, is_true. destruct (ASG _ _ _), (leq l); split; congruence. Qed.
Lemma false_iff s l : lit_false (tr s) l = true <-> is_false s l.
Proof. unfold lit_false, is_false. destruct (ASG _ _ _), (leq l); split; congruence. Qed.
Lemma open_iff s l : lit_un (tr s) l = true <-> is_open s l.
Proof. unfold lit_un, is_open. destruct (ASG _ _ _); split; congruence. Qed.

Lemma declared_range p t v d : NV t = nvars p -> (forall v, DOM t v = domsize p v) ->
  (declared p v d <-> range t v d).
Proof. intros N D. unfold declared, range. rewrite N, D. tauto. Qed.

Lemma filter_prefix {A} (f : A -> bool) l :
  (forall i j a b, nth_error l i = Some a -> nth_error l j = Some b -> (i <= j)%nat -> f b = true -> f a = true) ->
  exists m, l = filter f l ++ m /\ forall x, In x m -> f x = false.
Proof.
  induction l as [|a l IH]; intro H; simpl.
  - exists []. split; auto. intros x [].
  - destruct (f a) eqn:E.
    + destruct IH as (m & E1 & E2).
      { intros i j x y Hi Hj L. apply (H (S i) (S j)); auto. lia. }
      exists m. split; auto. simpl. congruence.
    + assert (Z : forall x, In x (a :: l) -> f x = false).
      { intros x Hx. destruct (f x) eqn:F; auto. apply In_nth_error in Hx. destruct Hx as (j & Hj).
        rewrite (H 0%nat j a x) in E; auto. lia. }
      exists (a :: l). split; auto. replace (filter f l) with (@nil A); auto.
      symmetry. clear -Z. assert (forall x, In x l -> f x = false) by (intros; apply Z; simpl; auto).
      clear Z. induction l as [|b l IH]; simpl; auto. rewrite H by (simpl; auto).
      apply IH. intros; apply H; simpl; auto.
Qed.

Lemma cut_restored p s k s' ex :
  NV (tr s) = nvars p -> (forall v, DOM (tr s) v = domsize p v) ->
  TB (tr s) (level s) ex -> TD (tr s) -> cut (tr s) k (tr s') -> k < level s -> restored p s k s'.
Proof.
  intros N D B T C L.
  assert (R : forall v d, declared p v d <-> range (tr s) v d) by (intros; apply declared_range; auto).
  split.
  - intros v d Hd Hk. apply R in Hd. destruct (cut_kept _ _ _ C v d Hd Hk) as (A1 & A2 & A3).
    repeat split; auto. apply C.
  - intros v d Hd Hk. apply R in Hd. apply C; auto.
  - destruct (filter_prefix (fun l => llev (tr s) l <=? k) (DST (tr s))) as (m & E & Hm).
    { intros i j a b Hi Hj Hij. rewrite !Z.leb_le. pose proof (td_mono _ T i j a b Hi Hj Hij). lia. }
    exists m. rewrite (cut_dst _ _ _ C). split; auto. split.
    + intros f Hf. apply filter_In in Hf. destruct Hf as (_ & Hf). apply Z.leb_le in Hf. exact Hf.
    + intros f Hf. apply Hm in Hf. apply Z.leb_gt in Hf. exact Hf.
  - intros v Hv.
    assert (Q : forall d, range (tr s) v d -> ASG (tr s) v d = Pos -> ALEV (tr s) v d <= k ->
      forall d', range (tr s) v d' -> ALEV (tr s) v d' <= k).
    { intros d Rd P Hk d' Rd'. destruct (Z.eq_dec d' d) as [->|Ne]; auto.
      destruct (tb_neg _ _ _ B v d d' Rd Rd' P Ne); lia. }
    split.
    + intros d Hd P. assert (Rd : range (tr s) v d) by (apply R; split; auto).
      destruct (Z_lt_le_dec k (ALEV (tr s) v d)) as [G|G].
      { destruct (cut_gone _ _ _ C v d Rd G); congruence. }
      destruct (cut_kept _ _ _ C v d Rd G) as (A1 & _). rewrite A1 in P.
      rewrite (cut_val' _ _ _ C); [|eauto]. apply B; auto.
    + intro V. assert (K : forall d, range (tr s) v d -> ALEV (tr s) v d <= k).
      { intros d Rd. destruct (Z_lt_le_dec k (ALEV (tr s) v d)) as [G|G]; auto.
        exfalso. apply V. apply (cut_val _ _ _ C). eauto. }
      rewrite (cut_val' _ _ _ C) in * by auto.
      destruct (tb_val _ _ _ B v) as (A1 & A2); auto; [lia|]. split; [apply R; auto|].
      destruct (cut_kept _ _ _ C v (VAL (tr s) v) A1) as (A3 & _); auto. congruence.
Qed.

Lemma CI_counted s : CI s -> counted s.
Proof.
  intros H n C Hn. destruct (H n C Hn) as [(E & F & U)|(E & _ & (l & Hl & Tl & Ll) & M)].
  - split; [split; [congruence|]|split].
    + intros (l & Hl & Tl). apply true_iff in Tl. rewrite F in Tl; auto; discriminate.
    + congruence.
    + auto.
  - split; [split|split].
    + intros _. exists l. split; auto. apply true_iff; auto.
    + lia.
    + intros _. split.
      * exists l. split; auto. split; auto. apply true_iff; auto.
      * intros x Hx Tx. apply M; auto. apply true_iff; auto.
    + lia.
Qed.

Lemma WCS_watched s : WCS s -> conflict s = false -> watched s.
Proof.
  intros H Cf n C Hn. pose proof (WCS_ws _ H) as W. split; [apply (ws_w0 _ W); auto|].
  split; [apply (ws_w1 _ W); auto|]. split.
  - intro l. rewrite <- nocc_pos, (ws_occ _ W n C l Hn).
    destruct (lit_eqb_spec l (w0 s n)) as [E0|E0].
    + split; [auto|lia].
    + destruct (Nat.ltb_spec 1 (length C)) as [L|L]; simpl.
      * destruct (lit_eqb_spec l (w1 s n)) as [E1|E1].
        -- split; [auto|lia].
        -- split; [lia|]. intros [E|(_ & E)]; congruence.
      * split; [lia|]. intros [E|(A & _)]; [congruence|lia].
  - intros L Nu. destruct (jw_good _ _ (wc_J _ H) Cf n C Hn) as (_ & G). split; intro F; apply false_iff in F.
    + destruct (G (w0 s n) (w1 s n)) as [(A & _)|(_ & _ & [A|[]] & _)]; auto; [split; auto|apply true_iff; auto|tauto].
    + destruct (G (w1 s n) (w0 s n)) as [(A & _)|(_ & _ & [A|[]] & _)]; auto; [split; auto|apply true_iff; auto|tauto].
Qed.

(** ** Learned clauses *)

Lemma ent_consequence p t0 D : start_trail p t0 -> entailed t0 (clauses p) D -> consequence p D.
Proof.
  intros (N & Dm & _) E a (La & Ha). apply E; auto.
  intros v Hv. rewrite N in Hv. rewrite Dm. specialize (La v Hv). lia.
Qed.

Lemma NI_learnt p t0 s : start_trail p t0 -> NI t0 (clauses p) s -> only_learnt p s.
Proof.
  intros ST H. destruct (ni_cl _ _ _ H) as (ls & E & _). exists ls. split; auto. intros C HC.
  assert (IC : In C (cl s)) by (rewrite E; apply in_or_app; auto).
  pose proof (CS_si _ (ni_CS _ _ _ H)) as HS.
  split; [apply (ent_consequence p t0); auto; apply (ni_ent _ _ _ H); auto|].
  split; [apply (ni_nd _ _ _ H); auto|]. split; [intros ->; apply (si_ne _ HS); auto|].
  intros l Hl. pose proof (si_ok _ HS C l IC Hl) as (R1 & R2). destruct ST as (N & D & _).
  rewrite (ni_nv _ _ _ H), N in R1. rewrite (ni_dom _ _ _ H), D in R2. split; auto.
Qed.

Lemma WI_learnt p t0 s : start_trail p t0 -> WI t0 (clauses p) s -> only_learnt p s.
Proof.
  intros ST H. destruct (wi_cl _ _ _ H) as (ls & E & _). exists ls. split; auto. intros C HC.
  assert (IC : In C (cl s)) by (rewrite E; apply in_or_app; auto).
  pose proof (WCS_ws _ (wi_CS _ _ _ H)) as HS.
  split; [apply (ent_consequence p t0); auto; apply (wi_ent _ _ _ H); auto|].
  split; [apply (ws_nd _ HS); auto|]. split.
  { intros ->. apply In_nth_error in IC. destruct IC as (n & Hn). exact (ws_w0 _ HS n [] Hn). }
  intros l Hl. pose proof (ws_ok _ HS C l IC Hl) as (R1 & R2). destruct ST as (N & D & _).
  rewrite (wi_nv _ _ _ H), N in R1. rewrite (wi_dom _ _ _ H), D in R2. split; auto.
Qed.

Lemma nc_final_learnt c clk r p fuel rep s : wf p -> no_repeats p -> watch c = false -> lenient c = true ->
  solve fuel NonChrono c clk r p = Ok (rep, s) -> only_learnt p s.
Proof.
  intros W ND Hw Le E. unfold solve in E. destruct (build_ok c p W) as (t & s0 & EB & ST & B).
  rewrite EB in E. cbn [bind] in E. unfold solve_state in E. cbn [run_search] in E. rewrite Hw in E.
  pose proof (start_NI c p t s0 W ND Hw ST B) as H0.
  destruct (bu_misc _ _ _ _ B) as (L0 & _ & _ & B0 & _ & _ & _ & R0 & T0).
  destruct (nc_loop_ok c clk r t (clauses p) s0 r Hw Le H0 (rs_start r s0 R0 B0))
    as (N & v & s1 & E1 & (F1 & _) & _).
  apply bind_ok in E. destruct E as ((v2, s2) & E2 & E).
  assert (X : (v2, s2) = (v, s1)).
  { apply (settled_ok (fun f => nc_loop f c clk r r s0) N _ _ fuel); auto. intros; apply nc_loop_below; auto. }
  injection X as -> ->.
  assert (s = s1) as ->; [|apply (NI_learnt p t); auto].
  destruct v; try (apply bind_ok in E; destruct E as (b & _ & E)); congruence.
Qed.

Lemma wl_final_learnt c clk r p fuel rep s : wf p -> no_repeats p -> watch c = true -> lenient c = true -> heur c <> BK ->
  solve fuel NonChrono c clk r p = Ok (rep, s) -> only_learnt p s.
Proof.
  intros W ND Hw Le NB E. unfold solve in E. destruct (build_ok c p W) as (t & s0 & EB & ST & B).
  rewrite EB in E. cbn [bind] in E. unfold solve_state in E. cbn [run_search] in E. rewrite Hw in E.
  pose proof (start_WI c p t s0 W ND Hw ST B) as H0.
  destruct (bu_misc _ _ _ _ B) as (L0 & _ & _ & B0 & _ & _ & _ & R0 & T0).
  destruct (wl_loop_ok c clk r t (clauses p) s0 r Hw Le NB H0 (rs_start r s0 R0 B0))
    as (N & v & s1 & E1 & (F1 & _) & _).
  apply bind_ok in E. destruct E as ((v2, s2) & E2 & E).
  assert (X : (v2, s2) = (v, s1)).
  { apply (settled_ok (fun f => wl_loop f c clk r r s0) N _ _ fuel); auto. intros; apply wl_loop_below; auto. }
  injection X as -> ->.
  assert (s = s1) as ->; [|apply (WI_learnt p t); auto].
  destruct v; try (apply bind_ok in E; destruct E as (b & _ & E)); congruence.
Qed.

(** ** Conflicts *)

Lemma jumped_drives p c r rc s C lv s' rc' :
  consequence p C -> jumped c r rc s C lv s' rc' -> drives p rc s s' C.
Proof.
  intros Q J. split; [apply J|]. split; auto.
  split; [intros l Hl; apply false_iff; apply (an_false _ _ _ (ju_an _ _ _ _ _ _ _ _ J)); auto|].
  split; [apply J|]. pose proof (ju_lv _ _ _ _ _ _ _ _ J) as L. split.
  { rewrite (ju_level _ _ _ _ _ _ _ _ J). destruct (_ =? _); lia. }
  split; [apply J|].
  destruct (ju_one _ _ _ _ _ _ _ _ J) as (u & U1 & U2 & U3). exists u. split; auto. split; auto. split; auto.
  pose proof (ju_level _ _ _ _ _ _ _ _ J) as EL.
  pose proof (an_range _ _ _ (ju_an _ _ _ _ _ _ _ _ J)) as R.
  pose proof (ju_cut _ _ _ _ _ _ _ _ J) as CU.
  assert (WT : level s' = lv -> is_open s' u /\ (forall l, In l C -> l <> u -> is_false s' l) /\ ulist s' = [length (cl s)]).
  { clear EL. intro EL. split; [|split].
    - destruct (cut_gone _ _ _ CU (lvar u) (lval u)) as (A & _); auto; [apply R; auto|].
      unfold llev in U2. lia.
    - intros l Hl Nu. pose proof (ju_lv1 _ _ _ _ _ _ _ _ J l Hl (U3 l Hl Nu)) as K. unfold llev in K.
      destruct (cut_kept _ _ _ CU (lvar l) (lval l)) as (A & _); [apply R; auto|lia|].
      unfold is_false. rewrite A. apply false_iff. apply (an_false _ _ _ (ju_an _ _ _ _ _ _ _ _ J)); auto.
    - rewrite (ju_ulist _ _ _ _ _ _ _ _ J), EL, Z.ltb_irrefl. auto. }
  cbv zeta. destruct (backtracks s + 1 =? rc).
  - split; auto. destruct (ju_lv2 _ _ _ _ _ _ _ _ J) as [->|(y & Y1 & Y2)]; auto.
    destruct (Z.eq_dec lv 0) as [->|N0]; auto. right.
    rewrite (ju_ulist _ _ _ _ _ _ _ _ J), EL. destruct (Z.ltb_spec 0 lv); [|lia]. split; auto.
    exists y. split; auto. unfold level_of. unfold llev in Y2. lia.
  - split; auto. rewrite EL. destruct (ju_lv2 _ _ _ _ _ _ _ _ J); auto.
Qed.

Lemma ent_trans t0 cs0 t cls C : NV t = NV t0 -> DOM t = DOM t0 ->
  (forall D, In D cls -> entailed t0 cs0 D) -> entailed t cls C -> entailed t0 cs0 C.
Proof.
  intros N D H E a La Ha. apply E.
  - apply (legalT_dom a t0); auto.
  - intros D' HD. apply H; auto.
Qed.

Lemma nc_conflict_drives c clk r p rc s rc' s' :
  wf p -> no_repeats p -> watch c = false -> lenient c = true -> nc_conflict_at c clk r p rc s rc' s' ->
  (exists C, drives p rc s s' C) /\ restored p s (level s') s' /\ counted s'.
Proof.
  intros W ND Hw Le H. destruct (nc_conflict_at_ok c clk r p rc s rc' s' W ND Hw Le H) as (t0 & C & lv & ST & I & J & H').
  assert (Q : consequence p C).
  { apply (ent_consequence p t0); auto. apply (ent_trans t0 (clauses p) (tr s) (cl s)); try apply I. apply J. }
  pose proof (jumped_drives p c r rc s C lv s' rc' Q J) as D. split; [eauto|]. split.
  - apply (cut_restored p s (level s') s' (fun _ => conflict s = true)).
    + rewrite (ni_nv _ _ _ I). apply ST.
    + rewrite (ni_dom _ _ _ I). apply ST.
    + apply (ni_CS _ _ _ I).
    + apply (ni_CS _ _ _ I).
    + apply J.
    + apply D.
  - apply CI_counted, CS_ci; auto.
Qed.

Lemma wl_conflict_drives c clk r p rc s rc' s' :
  wf p -> no_repeats p -> watch c = true -> lenient c = true -> heur c <> BK -> wl_conflict_at c clk r p rc s rc' s' ->
  (exists C, drives p rc s s' C) /\ restored p s (level s') s' /\ watched s'.
Proof.
  intros W ND Hw Le NB H. destruct (wl_conflict_at_ok c clk r p rc s rc' s' W ND Hw Le NB H) as (t0 & C & lv & ST & I & J & H').
  assert (Q : consequence p C).
  { apply (ent_consequence p t0); auto. apply (ent_trans t0 (clauses p) (tr s) (cl s)); try apply I. apply J. }
  pose proof (jumped_drives p c r rc s C lv s' rc' Q J) as D. split; [eauto|]. split.
  - apply (cut_restored p s (level s') s' (fun _ => conflict s = true)).
    + rewrite (wi_nv _ _ _ I). apply ST.
    + rewrite (wi_dom _ _ _ I). apply ST.
    + apply (wi_CS _ _ _ I).
    + apply (wi_CS _ _ _ I).
    + apply J.
    + apply D.
  - apply WCS_watched; auto. apply J.
Qed.

Lemma ch_conflict_restored c clk p s s' :
  wf p -> watch c = false -> heur c = BK \/ heur c = Lazy -> ch_conflict_at c clk p s s' ->
  cl s' = cl s /\ level s' = level s - 1 /\ restored p s (level s') s' /\ counted s'.
Proof.
  intros W Hw Hh H. destruct (ch_conflict_at_ok c clk p Hh s s' W Hw H) as (lev & HC & L & _ & _ & Ec & _ & CU & CN).
  split; auto. split; auto. split; [|apply CI_counted; auto]. rewrite L.
  pose proof (cc_CS _ _ _ _ HC) as HS.
  apply (cut_restored p s (level s - 1) s' (fun _ => conflict s = true)); auto; try apply HS; try lia.
  - apply HC.
  - intro v. apply (cc_dom _ _ _ _ HC).
Qed.

(** ** Decisions *)

Lemma live_occurrences l (g : clause -> bool) : forall cs y,
  (forall n C, nth_error cs n = Some C -> (y n =? -1) = g C) ->
  Z.of_nat (live cs y l) = occurrences l (filter g cs).
Proof.
  intros cs. induction cs as [|C cs IH] using rev_ind; intros y H; [reflexivity|].
  unfold live. rewrite app_length. simpl length. rewrite Nat.add_1_r. cbn [nsum].
  rewrite app_nth2, Nat.sub_diag by lia. cbn [nth].
  rewrite (nsum_ext _ (fun i => if y i =? -1 then occ l (nth i cs []) else 0%nat)).
  2: { intros i Hi. rewrite app_nth1 by auto. reflexivity. }
  rewrite (H (length cs) C) by (rewrite nth_error_app2, Nat.sub_diag by lia; auto).
  fold (live cs y l). rewrite Nat2Z.inj_add, IH.
  - unfold occurrences. rewrite filter_app, concat_app, filter_app, app_length, Nat2Z.inj_add. f_equal.
    simpl. destruct (g C); simpl; auto. rewrite app_nil_r. reflexivity.
  - intros n D Hn. apply H. rewrite nth_error_app1; auto. apply nth_error_Some. congruence.
Qed.

Lemma cnt_score s v d : CI s -> CNT s -> ASG (tr s) v d = Un ->
  cnt s (mkLit v d true) - cnt s (mkLit v d false) = bk_score s v d.
Proof.
  intros H N U. rewrite !N. unfold lit_un. simpl. rewrite U.
  assert (G : forall n C, nth_error (cl s) n = Some C -> (clev s n =? -1) = negb (satisfied_by s C)).
  { intros n C Hn. unfold satisfied_by. destruct (H n C Hn) as [(E & F & _)|(E & _ & (l & Hl & Tl & _) & _)].
    - rewrite E. simpl. destruct (existsb _ C) eqn:X; auto. apply existsb_exists in X.
      destruct X as (l & Hl & Tl). rewrite F in Tl; auto.
    - rewrite (proj2 (existsb_exists _ _)) by eauto. apply Z.eqb_neq. lia. }
  rewrite !(live_occurrences _ _ _ _ G). reflexivity.
Qed.

Definition lexlt (a b : Z * Z) : Prop := fst a < fst b \/ fst a = fst b /\ snd a < snd b.

Lemma sorted_app {A} (R : A -> A -> Prop) l1 l2 : StronglySorted R l1 -> StronglySorted R l2 ->
  (forall a b, In a l1 -> In b l2 -> R a b) -> StronglySorted R (l1 ++ l2).
Proof.
  induction 1 as [|a l H IH F]; intros H2 C; simpl; auto. constructor.
  - apply IH; auto. intros; apply C; simpl; auto.
  - apply Forall_app. split; auto. apply Forall_forall. intros; apply C; simpl; auto.
Qed.

Lemma sorted_map {A B} (R : A -> A -> Prop) (Q : B -> B -> Prop) (f : A -> B) l :
  (forall a b, R a b -> Q (f a) (f b)) -> StronglySorted R l -> StronglySorted Q (map f l).
Proof.
  intro H. induction 1 as [|a l S IH F]; simpl; constructor; auto.
  apply Forall_map. eapply Forall_impl; [|exact F]. auto.
Qed.

Lemma sorted_seq n : forall k, StronglySorted Nat.lt (seq k n).
Proof.
  induction n as [|n IH]; intro k; simpl; constructor; auto. apply Forall_forall.
  intros x Hx. apply in_seq in Hx. unfold Nat.lt. lia.
Qed.

Lemma sorted_zrange lo n : StronglySorted Z.lt (zrange lo n).
Proof. unfold zrange. apply (sorted_map Nat.lt); [intros; unfold Nat.lt in *; lia|apply sorted_seq]. Qed.

Lemma sorted_atoms t lo : StronglySorted lexlt (atoms_from t lo).
Proof.
  unfold atoms_from. generalize (sorted_zrange lo (NV t + 1 - lo)). generalize (zrange lo (NV t + 1 - lo)) as vs.
  induction 1 as [|v vs S IH F]; simpl; [constructor|]. apply sorted_app; auto.
  - apply (sorted_map Z.lt); [|apply sorted_zrange]. intros a b L. right. simpl. auto.
  - intros (v1, d1) (v2, d2) H1 H2. apply in_map_iff in H1. destruct H1 as (x & E & _). injection E as <- <-.
    apply in_flat_map in H2. destruct H2 as (w & Hw & H2). apply in_map_iff in H2. destruct H2 as (y & E & _).
    injection E as <- <-. left. simpl. rewrite Forall_forall in F. auto.
Qed.

(** The first of the maxima. *)
Lemma bk_first s : forall xs b, StronglySorted lexlt xs ->
  (forall m l a, b = Some (m, l) -> In a xs -> lexlt (lvar l, lval l) a) ->
  forall m l, fold_left (bk_step s) xs b = Some (m, l) ->
  (forall v d, In (v, d) xs -> candidate (tr s) (v, d) = true ->
     cnt s (mkLit v d true) - cnt s (mkLit v d false) < m \/
     cnt s (mkLit v d true) - cnt s (mkLit v d false) = m /\ ((v, d) = (lvar l, lval l) \/ lexlt (lvar l, lval l) (v, d))) /\
  match b with Some (m0, l0) => m0 < m \/ m0 = m /\ l0 = l | None => True end.
Proof.
  induction xs as [|(v, d) xs IH]; intros b SS Hb m l E; simpl in E.
  - subst b. split; auto. intros v d [].
  - inversion SS as [|? ? S1 F1]; subst. rewrite Forall_forall in F1.
    unfold bk_step at 2 in E. cbn [fst snd] in E.
    set (x := cnt s (mkLit v d true) - cnt s (mkLit v d false)) in *.
    destruct (candidate (tr s) (v, d)) eqn:Cn.
    + assert (K : match b with Some (m0, l0) => (m0 < x \/ x <= m0) | None => True end).
      { destruct b as [(m0, l0)|]; auto. lia. }
      destruct b as [(m0, l0)|].
      * destruct (Z.ltb_spec m0 x) as [G|G].
        -- apply IH in E; auto.
           ++ destruct E as (E1 & E2). split.
              ** intros v' d' [X|X] C'; auto. injection X as <- <-. fold x.
                 destruct E2 as [E2|(E2 & E3)]; [left; lia|]. right. split; [lia|]. left. subst l. reflexivity.
              ** destruct E2 as [E2|(E2 & E3)]; left; lia.
           ++ intros m1 l1 a X Ha. injection X as <- <-. simpl. auto.
        -- apply IH in E; auto.
           ++ destruct E as (E1 & E2). split; auto.
              intros v' d' [X|X] C'; auto. injection X as <- <-. fold x.
              destruct E2 as [E2|(E2 & E3)]; [left; lia|]. subst.
              destruct (Z.eq_dec x m) as [Ex|Ex]; [|left; lia]. right. split; auto. right.
              apply (Hb m l (v, d)); simpl; auto.
           ++ intros m1 l1 a X Ha. injection X as <- <-. apply (Hb m0 l0); simpl; auto.
      * apply IH in E; auto.
        -- destruct E as (E1 & E2). split; auto.
           intros v' d' [X|X] C'; auto. injection X as <- <-. fold x.
           destruct E2 as [E2|(E2 & E3)]; [left; lia|]. right. split; [lia|]. left. subst l. reflexivity.
        -- intros m1 l1 a X Ha. injection X as <- <-. simpl. auto.
    + apply IH in E; auto.
      * destruct E as (E1 & E2). split; auto. intros v' d' [X|X] C'; auto. injection X as <- <-. congruence.
      * intros m1 l1 a X Ha. apply (Hb m1 l1); simpl; auto.
Qed.

Lemma bk_value s : forall xs b,
  (forall m l, b = Some (m, l) -> m = cnt s (mkLit (lvar l) (lval l) true) - cnt s (mkLit (lvar l) (lval l) false)) ->
  forall m l, fold_left (bk_step s) xs b = Some (m, l) ->
  m = cnt s (mkLit (lvar l) (lval l) true) - cnt s (mkLit (lvar l) (lval l) false).
Proof.
  induction xs as [|(v, d) xs IH]; intros b Hb m l E; simpl in E; auto.
  apply IH in E; auto. intros m1 l1. unfold bk_step. cbn [fst snd].
  destruct (candidate (tr s) (v, d)); auto. destruct b as [(m0, l0)|].
  - destruct (_ <? _); auto. intro X. injection X as <- <-. reflexivity.
  - intro X. injection X as <- <-. reflexivity.
Qed.

Lemma open_all_valued p s lev :
  wf p -> NV (tr s) = nvars p -> (forall v, DOM (tr s) v = domsize p v) -> TB (tr s) lev (fun _ => False) ->
  (forall v d, ~ open_atom (tr s) v d) -> forall v, 1 <= v <= nvars p -> VAL (tr s) v <> -1.
Proof.
  intros W N D B H v Hv V. destruct (noval_open _ _ v B) as (d & O); auto; [lia|rewrite D; apply wf_two; auto|].
  exact (H v d O).
Qed.

Lemma undecided_open p s v d : NV (tr s) = nvars p -> (forall v, DOM (tr s) v = domsize p v) ->
  (undecided p s v d <-> open_atom (tr s) v d).
Proof. intros N D. unfold undecided, open_atom. rewrite (declared_range p (tr s)); auto. tauto. Qed.

Lemma bk_choice_ok p s :
  wf p -> NV (tr s) = nvars p -> (forall v, DOM (tr s) v = domsize p v) ->
  TB (tr s) (level s) (fun _ => False) -> CI s -> CNT s -> bk_choice p s (choose_bk s).
Proof.
  intros W N D B HC HN. pose proof (tb_nv _ _ _ B) as N0. pose proof (tb_dom0 _ _ _ B) as D0.
  destruct (choose_bk_spec s N0 D0) as [(E & H)|(O & Q & _)].
  - left. split; auto. apply (open_all_valued p s (level s)); auto.
  - right. split; auto. split; [apply undecided_open; auto|]. intros v d Hd. apply undecided_open in Hd; auto.
    unfold choose_bk in *. destruct (fold_left (bk_step s) (atoms_from (tr s) 0) None) as [(m, l)|] eqn:EF.
    2: { destruct O as (((X & _) & _) & _). simpl in X. lia. }
    destruct (bk_first s (atoms_from (tr s) 0) None (sorted_atoms _ _) ltac:(discriminate) m l EF) as (K & _).
    assert (M : forall v d, open_atom (tr s) v d -> In (v, d) (atoms_from (tr s) 0) /\ candidate (tr s) (v, d) = true).
    { intros v' d' (R & V & U). split; [apply in_atoms0; auto|apply candidate_iff; auto]. }
    assert (U : forall v d, open_atom (tr s) v d -> ASG (tr s) v d = Un) by (intros v' d' (_ & _ & X); auto).
    rewrite <- !cnt_score by auto.
    destruct (M _ _ Hd) as (M1 & M2). destruct (M _ _ O) as (M3 & M4).
    assert (EM := bk_value s (atoms_from (tr s) 0) None ltac:(discriminate) m l EF).
    rewrite <- EM. destruct (K _ _ M1 M2) as [K1|(K1 & [K2|K2])]; auto; right; split; auto.
    injection K2 as -> ->. right. split; [auto|lia].
    unfold lexlt in K2. simpl in K2. lia.
Qed.

Lemma vsids_first s xs b : scores_ok s -> nonneg (fst b) ->
  let r := fold_left (vsids_try s) xs b in
  r = b \/ exists bf af, xs = bf ++ snd r :: af /\ fst r = vs s (snd r) /\ SFltb (fst b) (fst r) = true /\
    forall x, In x bf -> SFltb (vs s x) (fst r) = true.
Proof.
  intro S. revert b. induction xs as [|x xs IH]; intros b B; simpl; auto.
  remember (vsids_try s b x) as b' eqn:Eb. unfold vsids_try in Eb.
  destruct (SFltb (fst b) (vs s x)) eqn:E; subst b'.
  - right. destruct (IH (vs s x, x) (S x)) as [->|(bf & af & I1 & I2 & I3 & I4)].
    + exists [], xs. simpl. repeat split; auto.
    + set (r := fold_left (vsids_try s) xs (vs s x, x)) in *. cbn [fst] in I3.
      exists (x :: bf), af. split; [simpl; congruence|]. split; auto. split.
      * destruct (SFltb (fst b) (fst r)) eqn:F; auto. rewrite I2 in F, I3.
        rewrite (ltb_trans_neg _ _ _ B (S x) (S (snd r)) E F) in I3. discriminate.
      * intros y [<-|Hy]; auto.
  - destruct (IH b B) as [->|(bf & af & I1 & I2 & I3 & I4)]; auto. right.
    set (r := fold_left (vsids_try s) xs b) in *. exists (x :: bf), af. split; [simpl; congruence|].
    split; auto. split; auto. intros y [<-|Hy]; auto. destruct (SFltb (vs s x) (fst r)) eqn:F; auto.
    rewrite I2 in F, I3. rewrite (ltb_false_trans _ _ _ B (S x) (S (snd r)) E F) in I3. discriminate.
Qed.

Lemma sorted_filter {A} (R : A -> A -> Prop) f l : StronglySorted R l -> StronglySorted R (filter f l).
Proof.
  induction 1 as [|a l S IH F]; simpl; [constructor|]. destruct (f a); auto. constructor; auto.
  rewrite Forall_forall in *. intros x Hx. apply filter_In in Hx. apply F. tauto.
Qed.

Lemma sorted_cand t f : (forall v d, StronglySorted earlier (f v d)) ->
  (forall v d l, In l (f v d) -> lvar l = v /\ lval l = d) -> StronglySorted earlier (cand_lits t f).
Proof.
  intros H1 H2. unfold cand_lits.
  induction (sorted_filter _ (candidate t) _ (sorted_atoms t 0)) as [|(v, d) l S IH F]; simpl; [constructor|].
  apply sorted_app; auto. intros a b Ha Hb. apply H2 in Ha. apply in_flat_map in Hb. destruct Hb as ((v', d') & Hx & Hb).
  apply H2 in Hb. cbn [fst snd] in Hb. rewrite Forall_forall in F. specialize (F _ Hx). unfold lexlt in F. cbn in F.
  unfold earlier. destruct Ha as (-> & ->), Hb as (-> & ->). lia.
Qed.

Lemma earlier_not a b : earlier a b -> ~ earlier b a.
Proof. unfold earlier. intros H1 H2. destruct (leq a), (leq b); intuition (try lia; try congruence). Qed.

Lemma vsids_first_of s xs l0 l : scores_ok s -> StronglySorted earlier xs ->
  snd (fold_left (vsids_try s) xs (f64_mone, l0)) = l -> forall l', In l' xs -> earlier l' l -> SFltb (vs s l') (vs s l) = true.
Proof.
  intros S ST E l' H1 H2. destruct xs as [|x xs]; [destruct H1|]. cbn [fold_left] in E.
  unfold vsids_try at 2 in E. cbn [fst] in E. rewrite ltb_mone in E by apply S.
  inversion ST as [|? ? S1 F1]; subst. rewrite Forall_forall in F1.
  pose proof (vsids_first s xs (vs s x, x) S (S x)) as V. cbv zeta in V.
  set (r := fold_left (vsids_try s) xs (vs s x, x)) in *.
  destruct V as [V|(bf & af & V1 & V2 & V3 & V4)].
  - rewrite V in *. cbn [snd] in *. destruct H1 as [<-|H1]; [destruct (earlier_not _ _ H2 H2)|].
    destruct (earlier_not _ _ H2 (F1 _ H1)).
  - rewrite <- V2. cbn [fst] in V3. destruct H1 as [<-|H1]; auto. rewrite V1 in H1. apply in_app_or in H1.
    destruct H1 as [H1|[<-|H1]]; auto; [destruct (earlier_not _ _ H2 H2)|].
    rewrite V1 in S1. exfalso. clear -S1 H1 H2. revert S1. induction bf as [|y bf IH]; simpl; intro S1.
    + inversion S1 as [|? ? _ F]; subst. rewrite Forall_forall in F. exact (earlier_not _ _ H2 (F _ H1)).
    + inversion S1; auto.
Qed.

Lemma sorted_both v d : StronglySorted earlier (both v d).
Proof.
  unfold both. constructor; [constructor; constructor|]. constructor; auto. right. cbn. auto.
Qed.
Lemma sorted_onlypos v d : StronglySorted earlier (onlypos v d).
Proof. unfold onlypos. constructor; constructor. Qed.

Lemma vsids_choice_ok p s : wf p -> NV (tr s) = nvars p -> (forall v, DOM (tr s) v = domsize p v) ->
  TB (tr s) (level s) (fun _ => False) -> scores_ok s -> vsids_choice false p s (choose_vsids s).
Proof.
  intros W N D B H. pose proof (tb_nv _ _ _ B) as N0. pose proof (tb_dom0 _ _ _ B) as D0.
  destruct (choose_vsids_spec s N0 D0 H) as [(E & K)|(O & K)].
  - left. split; auto. apply (open_all_valued p s (level s)); auto.
  - right. split; [apply undecided_open; auto|]. split; [discriminate|].
    intros l' Hl' _. apply (undecided_open p) in Hl'; auto. split; [apply K; auto|].
    refine (vsids_first_of s _ _ _ H _ (eq_sym (choose_vsids_fold s)) l' _).
    + apply sorted_cand; [apply sorted_both|]. intros v d x [<-|[<-|[]]]; auto.
    + apply in_cand_lits; auto. exists (lvar l'), (lval l'). split; auto. destruct l' as [v' d' []]; simpl; auto.
Qed.

Lemma vsids_pos_choice_ok p s : wf p -> NV (tr s) = nvars p -> (forall v, DOM (tr s) v = domsize p v) ->
  TB (tr s) (level s) (fun _ => False) -> scores_ok s -> vsids_choice true p s (choose_vsids_pos s).
Proof.
  intros W N D B H. pose proof (tb_nv _ _ _ B) as N0. pose proof (tb_dom0 _ _ _ B) as D0.
  destruct (choose_vsids_pos_spec s N0 D0 H) as [(E & K)|(O & Q & K)].
  - left. split; auto. apply (open_all_valued p s (level s)); auto.
  - right. split; [apply undecided_open; auto|]. split; [auto|].
    intros l' Hl' P. specialize (P eq_refl). destruct l' as [v d q]. simpl in P. subst q.
    apply (undecided_open p) in Hl'; auto. split; [apply K; auto|].
    refine (vsids_first_of s _ _ _ H _ (eq_sym (choose_vsids_pos_fold s)) _ _).
    + apply sorted_cand; [apply sorted_onlypos|]. intros v' d' x [<-|[]]; auto.
    + apply in_cand_lits; auto. exists v, d. split; simpl; auto.
Qed.

Lemma nc_bk_choice c clk r p s l :
  wf p -> no_repeats p -> watch c = false -> lenient c = true -> heur c = BK ->
  nc_decision_at c clk r p s l -> bk_choice p s l.
Proof.
  intros W ND Hw Le Hh H. destruct (nc_decision_at_ok c clk r p s l W ND Hw Le H) as (t0 & s2 & ST & I & CN & Cf & _ & Ch).
  unfold choose_nc in Ch. rewrite Hh in Ch. injection Ch as _ <-. pose proof (ni_CS _ _ _ I) as HS.
  apply bk_choice_ok; [exact W| | | | |].
  - rewrite (ni_nv _ _ _ I). apply ST.
  - rewrite (ni_dom _ _ _ I). apply ST.
  - apply (TB_noconf _ _ _ (cs_TB _ HS) Cf).
  - apply CS_ci; auto.
  - apply CN. unfold is_bk. rewrite Hh. auto.
Qed.

Lemma ch_bk_choice c clk p s l :
  wf p -> watch c = false -> heur c = BK -> ch_decision_at c clk p s l -> bk_choice p s l.
Proof.
  intros W Hw Hh H. destruct (ch_decision_at_ok c clk p (or_introl Hh) s l W Hw H) as (lev & s2 & HC & Cf & _ & Ch).
  unfold choose_ch in Ch. rewrite Hh in Ch. injection Ch as _ <-. pose proof (cc_CS _ _ _ _ HC) as HS.
  apply bk_choice_ok; [exact W| | | | |].
  - apply HC.
  - intro v. apply (cc_dom _ _ _ _ HC).
  - apply (TB_noconf _ _ _ (cs_TB _ HS) Cf).
  - apply CS_ci; auto.
  - apply HC. unfold is_bk. rewrite Hh. auto.
Qed.

Lemma nc_vsids_choice c clk r p s l :
  wf p -> no_repeats p -> watch c = false -> lenient c = true ->
  nc_decision_at c clk r p s l ->
  (heur c = VSIDS -> vsids_choice false p s l) /\ (heur c = VSIDS_pos -> vsids_choice true p s l).
Proof.
  intros W ND Hw Le H. destruct (nc_decision_at_ok c clk r p s l W ND Hw Le H) as (t0 & s2 & ST & I & CN & Cf & _ & Ch).
  pose proof (ni_CS _ _ _ I) as HS. unfold choose_nc in Ch.
  assert (N : NV (tr s) = nvars p) by (rewrite (ni_nv _ _ _ I); apply ST).
  assert (D : forall v, DOM (tr s) v = domsize p v) by (rewrite (ni_dom _ _ _ I); apply ST).
  assert (B := TB_noconf _ _ _ (cs_TB _ HS) Cf).
  split; intro Hh; rewrite Hh in Ch; injection Ch as _ <-;
    [apply vsids_choice_ok|apply vsids_pos_choice_ok]; auto; apply I.
Qed.

Lemma wl_vsids_choice c clk r p s l :
  wf p -> no_repeats p -> watch c = true -> lenient c = true ->
  wl_decision_at c clk r p s l ->
  (heur c = VSIDS -> vsids_choice false p s l) /\ (heur c = VSIDS_pos -> vsids_choice true p s l).
Proof.
  intros W ND Hw Le H.
  assert (K : heur c <> BK -> (heur c = VSIDS -> vsids_choice false p s l) /\ (heur c = VSIDS_pos -> vsids_choice true p s l)).
  { intro NB. destruct (wl_decision_at_ok c clk r p s l W ND Hw Le NB H) as (t0 & s2 & ST & I & Cf & _ & Ch).
    pose proof (wi_CS _ _ _ I) as HS. unfold choose_wl in Ch.
    assert (N : NV (tr s) = nvars p) by (rewrite (wi_nv _ _ _ I); apply ST).
    assert (D : forall v, DOM (tr s) v = domsize p v) by (rewrite (wi_dom _ _ _ I); apply ST).
    assert (B := TB_noconf _ _ _ (wc_TB _ HS) Cf).
    split; intro Hh; rewrite Hh in Ch; injection Ch as _ <-;
      [apply vsids_choice_ok|apply vsids_pos_choice_ok]; auto; apply I. }
  split; intro Hh; apply K; congruence.
Qed.
