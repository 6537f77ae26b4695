(** * The learned clause is the first asserting one of the resolution along the stack *)

From Verif Require Import Spec WideSpec Outcome State ModelCounter ModelHeur ModelLearn ModelWatch ModelSearch ModelBuild
  Base Trail Reduce Counter CounterUndo Propagate Choose Scores Chrono
  Init Analyze Learn Cdcl Nc Solve Watch WatchProp Wl SolveWl Fuel Counts Steps Reach Frame StepSpec TrailSpec LearnSpec.

Lemma excludes_iff x l : excludes x l <-> falsifies x l = true.
Proof.
  split; intro H.
  - destruct (falsifies x l) eqn:F; auto. destruct (compatible x l F) as (a & A1 & A2). destruct (H a A1 A2).
  - intros a A1 A2. exact (falsifies_sound a x l H A1 A2).
Qed.

Lemma excludes_not x l : falsifies x l = false <-> ~ excludes x l.
Proof. rewrite excludes_iff. destruct (falsifies x l); split; congruence. Qed.

Lemma merge_filter (l : lit) : forall R acc, NoDup R ->
  fold_left (fun acc x => if negb (falsifies x l) && negb (has_atom acc x) then acc ++ [x] else acc) R acc =
  acc ++ filter (fun x => negb (falsifies x l) && negb (has_atom acc x)) R.
Proof.
  induction R as [|y R IH]; intros acc ND; cbn [fold_left filter]; [rewrite app_nil_r; auto|].
  inversion ND as [|? ? NI ND']; subst. rewrite IH by auto.
  destruct (negb (falsifies y l) && negb (has_atom acc y)); [|reflexivity].
  rewrite <- app_assoc. f_equal. cbn [app]. f_equal. apply filter_ext_in. intros x Hx. f_equal.
  unfold has_atom. rewrite existsb_app. cbn [existsb].
  destruct (lit_eqb_spec x y) as [->|E]; [contradiction|]. rewrite orb_false_r; reflexivity.
Qed.

Lemma has_atom_in C x : has_atom C x = true <-> In x C.
Proof. apply has_atom_In. Qed.

Lemma resolve_resolvent C l R : NoDup R -> resolvent C l R (resolve C l R).
Proof.
  intro ND. unfold resolve. rewrite merge_filter by auto.
  eexists _, _. split; [reflexivity|]. split; intro x.
  - rewrite negb_true_iff. apply excludes_not.
  - rewrite andb_true_iff, !negb_true_iff. rewrite excludes_not. rewrite <- has_atom_in.
    destruct (has_atom _ x); intuition congruence.
Qed.

Lemma bool_same (b b' : bool) (P : Prop) : (b = true <-> P) -> (b' = true <-> P) -> b = b'.
Proof. intros [H1 H2] [H3 H4]. destruct b, b'; auto. symmetry. auto. Qed.

Lemma resolvent_unique C l R D D' : resolvent C l R D -> resolvent C l R D' -> D = D'.
Proof.
  intros (f & g & -> & F & G) (f' & g' & -> & F' & G').
  assert (EF : filter f C = filter f' C).
  { apply filter_ext. intro x. exact (bool_same _ _ _ (F x) (F' x)). }
  rewrite EF. f_equal. apply filter_ext. intro x. rewrite EF in G. exact (bool_same _ _ _ (G x) (G' x)).
Qed.

Lemma last_unique s C l l' : last_assigned s C l -> last_assigned s C l' -> l = l'.
Proof.
  intros (pre & post & E & A & B) (pre' & post' & E' & A' & B').
  assert (H : forall (p q : clause) (a b : lit) (x y : clause), p ++ a :: x = q ++ b :: y -> 
    (exists z, q = p ++ a :: z) \/ (exists z, p = q ++ b :: z) \/ a = b).
  { clear. induction p as [|u p IH]; intros q a b x y E.
    - destruct q as [|v q]; cbn in E; injection E as E1 E2; [right; right; auto|]. subst. left. exists q. auto.
    - destruct q as [|v q]; cbn in E; injection E as E1 E2.
      + subst. right. left. exists p. auto.
      + subst. destruct (IH _ _ _ _ _ E2) as [(z & ->)|[(z & ->)|H]]; [left; exists z; reflexivity|right; left; exists z; reflexivity|right; right; exact H]. }
  subst C. destruct (H _ _ _ _ _ _ E') as [(z & ->)|[(z & ->)|?]]; auto; exfalso.
  - assert (I1 : index_of s l < index_of s l') by (apply A'; apply in_or_app; right; left; auto).
    assert (I2 : index_of s l' <= index_of s l).
    { apply B. rewrite <- app_assoc in E'. apply app_inv_head in E'. cbn in E'. injection E' as ->. apply in_or_app. right; left; auto. }
    lia.
  - assert (I1 : index_of s l' < index_of s l) by (apply A; apply in_or_app; right; left; auto).
    assert (I2 : index_of s l <= index_of s l').
    { apply B'. rewrite <- app_assoc in E'. apply app_inv_head in E'. cbn in E'. injection E' as <-. apply in_or_app. right; left; auto. }
    lia.
Qed.

Lemma because_unique s l R R' : because s l R -> because s l R' -> R = R'.
Proof.
  unfold because. destruct (CID (tr s) (lvar l) (lval l)); try congruence; [|tauto].
  intros (f & E & ->) (f' & E' & ->). congruence.
Qed.

Lemma learns_unique s C D D' : learns s C D -> learns s C D' -> D = D'.
Proof.
  intro H. revert D'. induction H as [C A|C l R D E NA LA BC RS L IH]; intros D' H'.
  - inversion H' as [|? ? ? ? ? NA]; subst; auto. contradiction.
  - inversion H' as [|? l' R' D2 ? _ LA' BC' RS' L']; subst; [contradiction|]. apply IH.
    assert (l' = l) by (eapply last_unique; eauto). subst l'.
    assert (R' = R) by (eapply because_unique; eauto). subst R'.
    assert (D2 = D) by (eapply resolvent_unique; eauto). subst D2. exact L'.
Qed.

(** ** The literal assigned last *)

Section Last.
Variables (t : trail).

(** Best candidate so far: the first of the maximal ones. *)
Definition first_max (done : clause) (l : lit) : Prop :=
  exists pre post, done = pre ++ l :: post /\ (forall x, In x pre -> lidx t x < lidx t l) /\
    (forall x, In x post -> lidx t x <= lidx t l).

Lemma first_max_keep done l x : first_max done l -> lidx t x <= lidx t l -> first_max (done ++ [x]) l.
Proof.
  intros (pre & post & -> & A & B) H. exists pre, (post ++ [x]). rewrite <- app_assoc. split; auto. split; auto.
  intros y Hy. apply in_app_or in Hy. destruct Hy as [Hy|[<-|[]]]; auto.
Qed.
Lemma first_max_in done l : first_max done l -> In l done.
Proof. intros (pre & post & -> & _). apply in_or_app. right. left. auto. Qed.
Lemma first_max_top done l x : first_max done l -> In x done -> lidx t x <= lidx t l.
Proof.
  intros (pre & post & -> & A & B) H. apply in_app_or in H. destruct H as [H|[<-|H]]; auto; [|lia]. specialize (A x H). lia.
Qed.
Lemma first_max_new done l x : first_max done l -> lidx t l < lidx t x -> first_max (done ++ [x]) x.
Proof.
  intros F H. exists done, []. split; auto. split; [|intros ? []]. intros y Hy. pose proof (first_max_top _ _ _ F Hy). lia.
Qed.
Lemma first_max_one x : first_max [x] x.
Proof. exists [], []. split; auto. split; intros ? []. Qed.

Lemma max_lit_first C i : (forall x, In x C -> 0 <= lidx t x) -> C <> [] -> max_lit t C = Ok i ->
  exists l, nth_error C i = Some l /\ first_max C l.
Proof.
  intros P0 NE. unfold max_lit.
  assert (G : forall ls done best, C = done ++ ls -> max_lit_loop t ls (length done) best = Ok i ->
    match done with [] => best = (O, 0) | _ => exists l, nth_error done (fst best) = Some l /\ snd best = lidx t l /\ first_max done l end ->
    exists l, nth_error C i = Some l /\ first_max C l).
  { induction ls as [|x ls IH]; intros done best E M I.
    - rewrite app_nil_r in E. subst done. cbn in M. injection M as <-. destruct C as [|z r]; [congruence|].
      destruct I as (l & I1 & _ & I3). eauto.
    - cbn [max_lit_loop] in M. apply bind_ok in M. destruct M as (_ & _ & M).
      assert (LN : S (length done) = length (done ++ [x])) by (rewrite app_length; cbn; lia). rewrite LN in M.
      assert (EN : C = (done ++ [x]) ++ ls) by (rewrite <- app_assoc; auto).
      apply (IH _ _ EN M). clear IH M.
      assert (Px : 0 <= lidx t x) by (apply P0; rewrite E; apply in_or_app; right; left; auto).
      destruct done as [|z r].
      + subst best. cbn [snd app length]. destruct (Z.ltb_spec 0 (lidx t x)); cbn [fst snd].
        * exists x. cbn. split; auto. split; auto. apply first_max_one.
        * exists x. cbn. split; auto. split; [lia|]. apply first_max_one.
      + destruct I as (l & I1 & I2 & I3). cbn [app]. change (z :: r ++ [x]) with ((z :: r) ++ [x]).
        destruct (Z.ltb_spec (snd best) (lidx t x)) as [B|B]; cbn [fst snd].
        * exists x. split; [rewrite nth_error_app2, Nat.sub_diag by auto; reflexivity|]. split; auto.
          apply (first_max_new _ l); auto. lia.
        * exists l. split; [rewrite nth_error_app1; auto; apply nth_error_Some; congruence|]. split; auto.
          apply first_max_keep; auto. lia. }
  intro M. apply (G C [] (O, 0)); auto.
Qed.

Lemma assign_watched_first C a b : (forall x, In x C -> 0 <= lidx t x) -> C <> [] -> assign_watched t C = Ok (a, b) ->
  first_max C a.
Proof.
  intros P0 NE. unfold assign_watched.
  assert (G : forall ls done b1 b2, C = done ++ ls -> assign_watched_loop t ls b1 b2 = Ok (a, b) ->
    match done with [] => snd b1 = -1 | _ => snd b1 = lidx t (fst b1) /\ first_max done (fst b1) end -> first_max C a).
  { induction ls as [|x ls IH]; intros done b1 b2 E M I.
    - rewrite app_nil_r in E. subst done. cbn in M. injection M as <- _. destruct C as [|z r]; [congruence|]. apply I.
    - cbn [assign_watched_loop] in M. apply bind_ok in M. destruct M as (_ & _ & M). cbv zeta in M.
      assert (EN : C = (done ++ [x]) ++ ls) by (rewrite <- app_assoc; auto).
      assert (Px : 0 <= lidx t x) by (apply P0; rewrite E; apply in_or_app; right; left; auto).
      destruct (Z.ltb_spec (snd b1) (lidx t x)) as [B|B].
      + apply (IH _ _ _ EN M). destruct done as [|z r]; cbn [app fst snd].
        * split; auto. apply first_max_one.
        * split; auto. destruct I as (I1 & I2). apply (first_max_new (z :: r) (fst b1)); auto. lia.
      + assert (K : match done ++ [x] with [] => snd b1 = -1 | _ => snd b1 = lidx t (fst b1) /\ first_max (done ++ [x]) (fst b1) end).
        { destruct done as [|z r]; [lia|]. destruct I as (I1 & I2). cbn [app]. split; auto.
          apply (first_max_keep (z :: r)); auto. lia. }
        destruct (snd b2 <? lidx t x); apply (IH _ _ _ EN M); exact K. }
  intro M. apply (G C [] (nolit, -1) (nolit, -1)); auto.
Qed.
End Last.

(** ** Analysis *)

Section Analysis.
Variables (s : state) (ex : Z -> Prop).
Let t := tr s.
Let cls := cl s.
Let lev := level s.
Hypothesis HB : TB t lev ex.
Hypothesis HD : TD t.
Hypothesis HR : TR t cls.
Hypothesis HW : cls_ok t cls.
Hypothesis HL : 1 <= lev.
Hypothesis HN : forall D, In D cls -> NoDup D.

Lemma because_is L R : reason_is t cls L R -> because s L R /\ NoDup R.
Proof.
  unfold reason_is, because. fold t cls. destruct (CID t (lvar L) (lval L)) as [| |n|] eqn:E.
  - intros (f & F & ->). split; [exists f; auto|]. constructor; [|constructor; [intros []|constructor]].
    intros [X|[]]. discriminate.
  - intros ->. split.
    + unfold zrange. rewrite map_map. reflexivity.
    + apply FinFun.Injective_map_NoDup; [intros x y X; congruence|]. apply nodup_zrange.
  - intro H. split; auto. apply HN. eapply nth_error_In; eauto.
  - intros [].
Qed.

Lemma one_at_asserting C : one_at t lev C <-> asserting s C.
Proof. reflexivity. Qed.

Lemma two_at_not C : two_at t lev C -> ~ asserting s C.
Proof.
  intros (x & y & X1 & X2 & X3 & X4 & X5) (u & U1 & U2 & U3).
  destruct (lit_eq_dec x u) as [->|N].
  - specialize (U3 y X2 (not_eq_sym X3)). change (level_of s y) with (llev t y) in U3. fold lev in U3. lia.
  - specialize (U3 x X1 N). change (level_of s x) with (llev t x) in U3. fold lev in U3. lia.
Qed.

Lemma first_max_last C l : first_max t C l <-> last_assigned s C l.
Proof. reflexivity. Qed.

(** One step of the analysis, with the pivot the program takes. *)
Lemma analyze_learns c : forall fuel C a b temp x, AN t lev C ->
  (watch c = true -> watched_ok t C a b /\ first_max t C a) ->
  analyze fuel c s C a b temp = Ok x -> learns s C (fst (snd x)) /\ cl (fst x) = cls ++ [fst (snd x)].
Proof.
  assert (D0 : DOM t 0 = 0) by apply HB.
  induction fuel as [|fuel IH]; intros C a b temp x A W E; [discriminate|]. cbn [analyze] in E.
  destruct (potent_ok t lev ex HB HD c s C a b D0 eq_refl eq_refl A) as (po & EP & HP); [intro Hw; apply W; auto|].
  rewrite EP in E. cbn [bind] in E. destruct po.
  - destruct temp; [|discriminate]. apply bind_ok in E. destruct E as (s1 & E1 & E). injection E as <-. cbn [fst snd].
    split; [constructor; exact HP|]. clear - E1. unfold learn_clause in E1. cbv zeta in E1.
    apply bind_ok in E1. destruct E1 as (s2 & E2 & E1). apply bind_ok in E1. destruct E1 as (s3 & E3 & E1).
    destruct (lenient c); [|discriminate]. injection E1 as <-.
    assert (K2 : cl s2 = cls ++ [C]).
    { destruct (watch c); [|injection E2 as <-; reflexivity].
      apply bind_ok in E2. destruct E2 as (s4 & E4 & E2). apply do_ok in E4. injection E4 as <-.
      destruct (Nat.ltb 1 (length C)); [apply do_ok in E2|]; injection E2 as <-; reflexivity. }
    assert (K3 : cl s3 = cl s2).
    { apply (foldM_inv_ok (learn_atom c (length (cl s))) (fun u => cl u = cl s2) C s2 s3); auto. intros y u v _ Q E. rewrite <- Q.
      unfold learn_atom in E. apply do_ok in E. injection E as <-.
      assert (Bo : forall w v0 d0, cl (bump_others w v0 d0) = cl w).
      { clear. intros. unfold bump_others. generalize (zrange 0 (DOM (tr w) v0)). intro zs. revert w.
        induction zs as [|z zs IH]; intro w; cbn [fold_left]; auto. rewrite IH. destruct (z =? d0); reflexivity. }
      destruct (watch c), (heur c), (leq y); try reflexivity; rewrite Bo; reflexivity. }
    assert (K4 : cl (decay c s3) = cl s3).
    { unfold decay. clear. assert (F : forall (f : state -> Z * Z -> state) ls u, (forall u a, cl (f u a) = cl u) -> cl (fold_left f ls u) = cl u).
      { intros f ls. induction ls as [|z zs IH]; intros u H; cbn; auto. rewrite IH; auto. }
      destruct (heur c); auto; apply F; reflexivity. }
    congruence.
  - destruct HP as (x1 & x2 & I1 & I2 & N12 & V1 & V2).
    assert (LAST : forall L, (if watch c then Ok a else let* i := max_lit (tr s) C in
               match nth_error C i with Some l => Ok l | None => Undef OobClause end) = Ok L -> first_max t C L).
    { intros L. destruct (watch c).
      - intro X. injection X as <-. apply W; auto.
      - intro X. apply bind_ok in X. destruct X as (i & M & X).
        destruct (max_lit_first t C i) as (l & L1 & L2); auto.
        + intros y Hy. exact (an_idx t lev HD C y A Hy).
        + eapply an_ne; eauto.
        + rewrite L1 in X. injection X as <-. exact L2. }
    apply bind_ok in E. destruct E as (L & EL & E). apply LAST in EL. clear LAST.
    assert (LT : latest t C L).
    { split; [eapply first_max_in; eauto|]. intros y Hy. eapply first_max_top; eauto. }
    destruct (reason_clause_ok t cls lev HD HR s L C D0 eq_refl eq_refl A LT) as (R & ER & RI & _).
    rewrite ER in E. cbn [bind] in E. cbv zeta in E.
    destruct (resolve_step' t cls lev ex HB HD HR HW HL C L R x1 x2) as (A' & SM); auto.
    destruct (because_is L R RI) as (BC & NR).
    apply bind_ok in E. destruct E as (w & EW & E). apply IH in E; auto.
    + destruct E as (E1 & E2). split; auto. apply (learns_step s C L R (resolve C L R)); auto.
      * apply two_at_not. exists x1, x2. auto.
      * apply resolve_resolvent; auto.
    + intro Hw. rewrite Hw in EW. destruct (assign_watched_ok t lev HD (resolve C L R) D0 A') as (a' & b' & X1 & X2).
      fold t in EW. rewrite X1 in EW. injection EW as <-. split; auto. cbn [fst].
      apply (assign_watched_first t _ a' b'); auto.
      * intros y Hy. exact (an_idx t lev HD _ y A' Hy).
      * eapply an_ne; eauto.
Qed.
End Analysis.

(** ** The conflict branches *)

Lemma nc_conflict_cl fuel c r rc s x : nc_conflict fuel c r rc s = Ok x ->
  exists C y, nth_error (cl s) (confcl s) = Some C /\
    analyze fuel c s C (w0 s (confcl s)) (w1 s (confcl s)) false = Ok y /\ cl (fst x) = cl (fst y).
Proof.
  unfold nc_conflict. intro E. apply bind_ok in E. destruct E as (C & EC & E). apply bind_ok in E. destruct E as ((s1, q) & EA & E).
  exists C, (s1, q). split; [unfold getcl in EC; destruct (nth_error (cl s) (confcl s)); congruence|]. split; auto.
  apply bind_ok in E. destruct E as (lv & _ & E). cbv zeta in E. cbn in E. destruct (backtracks s1 + 1 =? rc).
  - apply bind_ok in E. destruct E as (s2 & E2 & E). apply still_undo in E2. unfold still, outer in E2. injection E as <-. cbn in E2 |- *.
    destruct (level s2 =? 0); cbn; congruence.
  - apply bind_ok in E. destruct E as (s2 & E2 & E). apply still_undo in E2. unfold still, outer in E2. injection E as <-. cbn in E2 |- *. congruence.
Qed.

Lemma wl_conflict_cl fuel c r rc s x : wl_conflict fuel c r rc s = Ok x ->
  exists C y, nth_error (cl s) (confcl s) = Some C /\
    analyze fuel c s C (w0 s (confcl s)) (w1 s (confcl s)) false = Ok y /\ cl (fst x) = cl (fst y).
Proof.
  unfold wl_conflict. intro E. apply bind_ok in E. destruct E as (C & EC & E). apply bind_ok in E. destruct E as ((s1, q) & EA & E).
  exists C, (s1, q). split; [unfold getcl in EC; destruct (nth_error (cl s) (confcl s)); congruence|]. split; auto.
  apply bind_ok in E. destruct E as (lv & _ & E). cbv zeta in E. cbn in E. destruct (backtracks s1 + 1 =? rc).
  - apply bind_ok in E. destruct E as (s2 & E2 & E). apply still_wundo in E2. unfold still, outer in E2. injection E as <-. cbn in E2 |- *.
    destruct (level s2 =? 0); cbn; congruence.
  - apply bind_ok in E. destruct E as (s2 & E2 & E). apply still_wundo in E2. unfold still, outer in E2. injection E as <-. cbn in E2 |- *. congruence.
Qed.

Lemma false_is s l : lit_false (tr s) l = true -> is_false s l.
Proof. intro H. apply lit_false_asg in H. exact H. Qed.

Lemma nc_learned c clk r p rc s rc' s' :
  wf p -> no_repeats p -> watch c = false -> lenient c = true -> nc_conflict_at c clk r p rc s rc' s' ->
  exists C D, nth_error (cl s) (confcl s) = Some C /\ (forall l, In l C -> is_false s l) /\
    cl s' = cl s ++ [D] /\ learns s C D.
Proof.
  intros W ND Hw Le H. destruct (nc_conflict_at_ok c clk r p rc s rc' s' W ND Hw Le H) as (t0 & _ & _ & _ & I & _).
  destruct H as (s0 & fuel & _ & _ & Cf & Lv & E).
  destruct (nc_conflict_cl _ _ _ _ _ _ E) as (C & y & EC & EA & CL). cbn [fst] in CL.
  pose proof (ni_CS _ _ _ I) as HC. pose proof (ni_TR _ _ _ I) as HT.
  destruct (conflict_false s HC Cf) as (D & HD & FD). assert (D = C) by congruence. subst D.
  assert (HB : TB (tr s) (level s) (fun _ => True)) by (eapply TB_weaken; [apply (cs_TB _ HC)|auto]).
  assert (HL : 1 <= level s) by (pose proof (cs_lev _ HC); lia).
  assert (InC : In C (cl s)) by (eapply nth_error_In; eauto).
  destruct (conflict_an (tr s) (level s) (fun _ => True) (cl s) C) as (A0 & _ & _); auto.
  { apply (cs_clo _ HC). } { apply (si_ok _ (CS_si _ HC)). } { apply (ni_nd _ _ _ I); auto. }
  destruct (analyze_learns s (fun _ => True) HB (cs_TD _ HC) HT (si_ok _ (CS_si _ HC)) HL (ni_nd _ _ _ I) c fuel C (w0 s (confcl s)) (w1 s (confcl s)) false y A0)
    as (L1 & L2); auto; [congruence|].
  exists C, (fst (snd y)). split; auto. split; [intros l Hl; apply false_is, FD; auto|]. split; auto. congruence.
Qed.

Lemma wl_learned c clk r p rc s rc' s' :
  wf p -> no_repeats p -> watch c = true -> lenient c = true -> heur c <> BK -> wl_conflict_at c clk r p rc s rc' s' ->
  exists C D, nth_error (cl s) (confcl s) = Some C /\ (forall l, In l C -> is_false s l) /\
    cl s' = cl s ++ [D] /\ learns_from s C (w0 s (confcl s)) D.
Proof.
  intros W ND Hw Le NB H. destruct (wl_conflict_at_ok c clk r p rc s rc' s' W ND Hw Le NB H) as (t0 & _ & _ & _ & I & _).
  destruct H as (s0 & fuel & _ & _ & Cf & Lv & E).
  destruct (wl_conflict_cl _ _ _ _ _ _ E) as (C & y & EC & EA & CL). cbn [fst] in CL.
  pose proof (wi_CS _ _ _ I) as HC. pose proof (wi_TR _ _ _ I) as HT. pose proof (wc_J _ HC) as HJ. pose proof (WCS_ws _ HC) as HS.
  destruct (jw_conf _ _ HJ Cf) as (D & HD & FD & M0 & M1). assert (D = C) by congruence. subst D.
  assert (HB : TB (tr s) (level s) (fun _ => True)) by (eapply TB_weaken; [apply (wc_TB _ HC)|auto]).
  assert (D0 : DOM (tr s) 0 = 0) by apply HB.
  assert (HL : 1 <= level s) by (pose proof (wc_lev _ HC); lia).
  assert (InC : In C (cl s)) by (eapply nth_error_In; eauto).
  destruct (conflict_an (tr s) (level s) (fun _ => True) (cl s) C) as (A0 & _ & T0); auto.
  { exact (JW_CLO _ _ HJ). } { apply (ws_ok _ HS). } { apply (ws_nd _ HS); auto. }
  assert (WO : watched_ok (tr s) C (w0 s (confcl s)) (w1 s (confcl s))).
  { split; [split; auto; apply (ws_w0 _ HS); auto|]. split.
    - intro L2. destruct (ws_w1 _ HS _ _ HD L2). auto.
    - intro L1. eapply ws_w1n; eauto. }
  destruct WO as (LT & WO).
  (* the first step *)
  destruct fuel as [|fuel]; [discriminate|]. cbn [analyze] in EA.
  destruct (potent_ok (tr s) (level s) (fun _ => True) HB (wc_TD _ HC) c s C (w0 s (confcl s)) (w1 s (confcl s)) D0 eq_refl eq_refl A0)
    as (po & EP & HP); [intros _; split; auto|]. rewrite EP in EA. cbn [bind] in EA. destruct po; [discriminate|].
  rewrite Hw in EA. cbn [bind] in EA.
  destruct (reason_clause_ok (tr s) (cl s) (level s) (wc_TD _ HC) HT s _ C D0 eq_refl eq_refl A0 LT) as (R & ER & RI & _).
  rewrite ER in EA. cbn [bind] in EA. cbv zeta in EA.
  destruct HP as (x1 & x2 & I1 & I2 & N12 & V1 & V2).
  destruct (resolve_step' (tr s) (cl s) (level s) (fun _ => True) HB (wc_TD _ HC) HT (ws_ok _ HS) HL C _ R x1 x2 A0 LT) as (A' & SM); auto.
  destruct (because_is s (ws_nd _ HS) _ R RI) as (BC & NR).
  destruct (assign_watched_ok (tr s) (level s) (wc_TD _ HC) (resolve C (w0 s (confcl s)) R) D0 A') as (a' & b' & X1 & X2).
  rewrite X1 in EA. cbn [bind fst snd] in EA.
  destruct (analyze_learns s (fun _ => True) HB (wc_TD _ HC) HT (ws_ok _ HS) HL (ws_nd _ HS) c fuel _ a' b' true y A') with (2 := EA) as (L1 & L2).
  { intros _. split; auto. apply (assign_watched_first (tr s) _ a' b'); auto.
    - intros z Hz. exact (an_idx (tr s) (level s) (wc_TD _ HC) _ z A' Hz).
    - eapply an_ne; eauto. }
  exists C, (fst (snd y)). split; auto. split; [intros l Hl; apply false_is, FD; auto|]. split; [congruence|].
  split; [apply two_at_not; exact T0|]. split; [apply LT|]. split; [apply LT|].
  exists R, (resolve C (w0 s (confcl s)) R). split; auto. split; auto. apply resolve_resolvent; auto.
Qed.
