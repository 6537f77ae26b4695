(** * Non-chronological search with watched literals *)

From Coq Require Import Floats.SpecFloat.
From Verif Require Import Spec Outcome State ModelCounter ModelHeur ModelLearn ModelWatch
  ModelSearch Base Trail Reduce Counter CounterUndo Propagate Choose Scores Chrono Analyze Learn Cdcl Nc
  Watch WatchProp.

(** ** One iteration of the loop of WatchedLiterals *)

(** Conflict handling and propagation, Formula.cc:1380-1420. *)
Definition wl_front (fuel : nat) (c : cfg) (r rc : Z) (s : state) : outcome (state * Z) :=
  let* p := if conflict s then wl_conflict fuel c r rc s else Ok (s, rc) in
  let (s, rc) := p in
  let* s := match ulist s with
            | [] => Ok s
            | _ => wunit_propagation fuel c s
            end in
  Ok (s, rc).

Definition wl_iter (fuel : nat) (c : cfg) (clk : nat -> bool) (r rc : Z) (s : state)
  : outcome ((verdict * state) + (Z * state)) :=
  let (late, s) := check_time clk s in
  if late then Ok (inl (TIMEOUT, s))
  else if conflict s && (level s =? 0) then Ok (inl (UNSAT, s))
  else
    let* p := wl_front fuel c r rc s in
    let (s, rc) := p in
    if conflict s then Ok (inr (rc, s))
    else
      let* q := choose_wl c s in
      let (s, l) := q in
      if lvar l =? -1 then Ok (inl (SAT, s))
      else
        let* s := wl_decide c s l in
        Ok (inr (rc, s)).

Lemma wl_loop_iter fuel c clk r rc s :
  wl_loop (S fuel) c clk r rc s =
  (let* x := wl_iter (S fuel) c clk r rc s in
   match x with
   | inl y => Ok y
   | inr (rc, s) => wl_loop fuel c clk r rc s
   end).
Proof.
  cbn [wl_loop]. unfold wl_iter, wl_front. destruct (check_time clk s) as (late, s1).
  destruct late; auto. destruct (conflict s1 && (level s1 =? 0)); auto.
  destruct (if conflict s1 then wl_conflict (S fuel) c r rc s1 else Ok (s1, rc)) as [[s2 rc2]|u|]; auto.
  cbn [bind].
  destruct (match ulist s2 with [] => Ok s2 | _ :: _ => wunit_propagation (S fuel) c s2 end) as [s3|u|]; auto.
  cbn [bind]. destruct (conflict s3); auto.
  destruct (choose_wl c s3) as [[s4 l]|u|]; auto. cbn [bind].
  destruct (lvar l =? -1); auto. destruct (wl_decide c s4 l) as [s5|u|]; auto.
Qed.

(** ** Learning *)

Lemma learnt_WS c s C a b s' :
  watch c = true -> WS s -> (forall l, In l C -> lrange (tr s) l) -> NoDup C ->
  In a C -> ((2 <= length C)%nat -> In b C /\ b <> a) -> (length C = 1%nat -> b = nolit) ->
  learnt c s C a b s' -> WS s'.
Proof.
  intros W S R ND Ia Ib Nb L.
  assert (OLDN : forall x, nocc (length (cl s)) (wls s x) = 0%nat).
  { intro x. apply (nocc_over _ _ (length (cl s))); auto. apply (ws_id _ S). }
  pose proof (le_wlsw _ _ _ _ _ _ L W) as EW.
  split.
  - rewrite (le_tr _ _ _ _ _ _ L), (le_cl _ _ _ _ _ _ L). intros D l HD Hl.
    apply in_app_iff in HD. destruct HD as [HD|[<-|[]]]; auto. apply (ws_ok _ S D); auto.
  - rewrite (le_cl _ _ _ _ _ _ L). intros D HD. apply in_app_iff in HD.
    destruct HD as [HD|[<-|[]]]; auto. apply (ws_nd _ S); auto.
  - rewrite (le_cl _ _ _ _ _ _ L), (le_w0 _ _ _ _ _ _ L). intros n D Hn.
    apply cases_snoc in Hn. destruct Hn as [(Hn & HD)|(-> & ->)].
    + rewrite updn_other by lia. apply (ws_w0 _ S); auto.
    + rewrite updn_same. auto.
  - rewrite (le_cl _ _ _ _ _ _ L), (le_w0 _ _ _ _ _ _ L), (le_w1 _ _ _ _ _ _ L). intros n D Hn LD.
    apply cases_snoc in Hn. destruct Hn as [(Hn & HD)|(-> & ->)].
    + rewrite !updn_other by lia. apply (ws_w1 _ S); auto.
    + rewrite !updn_same. auto.
  - rewrite (le_cl _ _ _ _ _ _ L), (le_w1 _ _ _ _ _ _ L). intros n D Hn LD.
    apply cases_snoc in Hn. destruct Hn as [(Hn & HD)|(-> & ->)].
    + rewrite !updn_other by lia. eapply ws_w1n; eauto.
    + rewrite !updn_same. auto.
  - rewrite (le_cl _ _ _ _ _ _ L), (le_w0 _ _ _ _ _ _ L), (le_w1 _ _ _ _ _ _ L). intros n D l Hn.
    apply cases_snoc in Hn. rewrite EW. destruct Hn as [(Hn & HD)|(-> & ->)].
    + rewrite !updn_other by lia. rewrite <- (ws_occ _ S n D l HD).
      assert (CO : forall ls, nocc n (length (cl s) :: ls) = nocc n ls).
      { intro ls. unfold nocc. rewrite countb_cons. destruct (Nat.eqb_spec n (length (cl s))); [lia|auto]. }
      destruct (Nat.ltb 1 (length C)); unfold updl;
        repeat match goal with |- context [lit_eqb ?x ?y] => destruct (lit_eqb_spec x y); subst end;
        rewrite ?CO; auto.
    + rewrite !updn_same.
      assert (CO : forall ls, nocc (length (cl s)) (length (cl s) :: ls) = (1 + nocc (length (cl s)) ls)%nat).
      { intro ls. unfold nocc. rewrite countb_cons, Nat.eqb_refl. auto. }
      destruct (Nat.ltb_spec 1 (length C)) as [L2|L2]; simpl.
      * destruct (Ib L2) as (_ & Nab). unfold updl.
        destruct (lit_eqb_spec l b) as [->|N1].
        -- destruct (lit_eqb_spec b a); [congruence|]. rewrite CO, OLDN. auto.
        -- destruct (lit_eqb_spec l a) as [->|N2]; rewrite ?CO, OLDN; auto.
      * unfold updl. destruct (lit_eqb_spec l a) as [->|N2]; rewrite ?CO, OLDN; auto.
  - rewrite (le_cl _ _ _ _ _ _ L), app_length. intros l n Hn. simpl. rewrite EW in Hn.
    assert (X : n = length (cl s) \/ exists l', In n (wls s l')).
    { destruct (Nat.ltb 1 (length C)); unfold updl in Hn;
        repeat match type of Hn with context [lit_eqb ?x ?y] => destruct (lit_eqb_spec x y); subst end;
        simpl in Hn; intuition eauto. }
    destruct X as [->|(l' & X)]; [lia|]. apply (ws_id _ S) in X. lia.
Qed.

(** ** Jumping back *)

Section WJump.
Variables (s s' : state) (C : clause) (a b : lit) (k lv : Z).
Let t := tr s.
Let t' := tr s'.
Hypothesis HJ : JW [] s.
Hypothesis HB : TB t (level s) (fun _ => True).
Hypothesis HD : TD t.
Hypothesis HL : 1 <= level s.
Hypothesis HA : AN t (level s) C.
Hypothesis HO : one_at t (level s) C.
Hypothesis HWO : watched_ok t C a b.

Lemma wl_a_lev : llev t a = level s.
Proof. eapply latest_lev; eauto. apply HWO. Qed.

Lemma wl_others x : In x C -> x <> a -> llev t x < level s.
Proof.
  intros Hx Nx. destruct HO as (u & U1 & U2 & U3). destruct HWO as ((Ia & _) & _).
  pose proof wl_a_lev as La.
  assert (a = u).
  { destruct (lit_eq_dec a u); auto. specialize (U3 a Ia n). lia. }
  subst u. auto.
Qed.

Lemma wl_len x : In x C -> x <> a -> (2 <= length C)%nat.
Proof.
  intros Hx Nx. destruct HWO as ((Ia & _) & _).
  destruct C as [|y [|z r]]; simpl; try lia; [destruct Hx|].
  destruct Hx as [<-|[]], Ia as [<-|[]]. congruence.
Qed.

Lemma wl_idx x : In x C -> x <> a -> llev t x <= llev t b /\ lidx t x <= lidx t b.
Proof.
  intros Hx Nx. pose proof (wl_len x Hx Nx) as L2. destruct HWO as (_ & W2 & _).
  destruct (W2 L2) as (Ib & _ & M). specialize (M x Hx Nx). split; auto.
  eapply idx_level; eauto; try (apply (an_range _ _ _ HA); auto); apply (an_false _ _ _ HA); auto.
Qed.

Hypothesis LV : lv = if Nat.ltb 1 (length C) then llev t b else 0.

Lemma wl_lv : 0 <= lv < level s /\ (forall x, In x C -> llev t x < level s -> llev t x <= lv) /\
  (lv = 0 \/ exists y, In y C /\ llev t y = lv) /\ ((2 <= length C)%nat -> lv = llev t b).
Proof.
  pose proof wl_a_lev as La.
  destruct (Nat.ltb_spec 1 (length C)) as [L2|L2].
  - destruct HWO as (_ & W2 & _). destruct (W2 L2) as (Ib & Nb & _).
    assert (Xb : 0 <= llev t b).
    { apply (an_le t (level s) (fun _ => True) HB C b HA Ib). }
    pose proof (wl_others b Ib Nb) as Yb. rewrite LV. split; [lia|]. split.
    + intros x Hx Lx. apply wl_idx; auto. intros ->. lia.
    + split; eauto.
  - rewrite LV. split; [lia|]. split; [|split; auto; lia].
    intros x Hx Lx. exfalso. assert (x <> a) by (intros ->; lia).
    pose proof (wl_len x Hx H). lia.
Qed.

Hypothesis HK : 0 <= k <= lv.
Hypothesis HT : cut t k t'.
Hypothesis HS' : WS s'.
Hypothesis Ecl : cl s' = cl s ++ [C].
Hypothesis Ew0 : w0 s' = updn (w0 s) (length (cl s)) a.
Hypothesis Ew1 : w1 s' = updn (w1 s) (length (cl s)) b.
Hypothesis Elv : level s' = k.
Hypothesis Ecf : conflict s' = false.
Hypothesis Eul : ulist s' = if k <? lv then [] else [length (cl s)].

Lemma wjump : WCS s'.
Proof.
  pose proof wl_lv as (V1 & V2 & V3 & V4). pose proof wl_a_lev as La.
  pose proof (jw_ws _ _ HJ) as HS.
  assert (RC : forall x, In x C -> lrange t x) by apply (an_range _ _ _ HA).
  destruct HWO as ((Ia & _) & W2 & W3).
  assert (Ua : lit_un t' a = true) by (apply (cut_un t k t'); auto; lia).
  assert (BACK : forall x, lrange t x -> lit_false t' x = true -> lit_false t x = true /\ llev t x <= k).
  { intros x Rx Fx. destruct (Z.le_gt_cases (llev t x) k) as [K|K].
    - rewrite (cut_false t k t') in Fx; auto.
    - pose proof (cut_un t k t' x HT Rx K). apply lit_false_un in Fx. congruence. }
  (* old clauses *)
  assert (G1 : forall n D, nth_error (cl s) n = Some D -> length D = 1%nat ->
     lit_true t' (w0 s n) = true /\ llev t' (w0 s n) = 0).
  { intros n D Hn L1. destruct (jw_old _ _ HJ n D Hn) as (O1 & _). destruct (O1 L1) as (T & Lt); [lia|].
    assert (R0 : lrange t (w0 s n)) by (eapply WS_range; eauto; apply (ws_w0 _ HS); auto).
    fold t in T, Lt. rewrite (cut_true t k t'), (cut_llev t k t'); auto; lia. }
  assert (G2 : forall n D w o, nth_error (cl s) n = Some D -> pair s n D w o -> lit_false t' w = true ->
     lit_true t' o = true /\ llev t' o <= llev t' w).
  { intros n D w o Hn P Fw. destruct (jw_old _ _ HJ n D Hn) as (_ & O2).
    destruct (pair_in _ _ _ _ _ HS Hn P) as (Iw & Io & _).
    pose proof (WS_range s n D w HS Hn Iw) as Rw. pose proof (WS_range s n D o HS Hn Io) as Ro.
    destruct (BACK w Rw Fw) as (Fw' & Kw). destruct (O2 w o P Fw') as (To & Lo); [fold t; lia|]. fold t in To, Lo.
    rewrite (cut_true t k t'), !(cut_llev t k t'); auto; lia. }
  assert (PO : forall n D w o, nth_error (cl s) n = Some D -> pair s' n D w o -> pair s n D w o).
  { intros n D w o Hn (P1 & P2). assert (n <> length (cl s)) by (apply nth_error_lt in Hn; lia).
    rewrite Ew0, Ew1, !updn_other in P2 by auto. split; auto. }
  assert (PN : forall w o, pair s' (length (cl s)) C w o -> (2 <= length C)%nat /\ (w = a /\ o = b \/ w = b /\ o = a)).
  { intros w o (P1 & P2). rewrite Ew0, Ew1, !updn_same in P2. auto. }
  assert (Fb : (2 <= length C)%nat -> lit_false t' b = true -> k = lv /\ llev t' b = k).
  { intros L2 F. destruct (W2 L2) as (Ib & _). destruct (BACK b (RC b Ib) F) as (_ & Kb).
    rewrite V4 in * by auto. split; [lia|]. rewrite (cut_llev t k t'); auto. lia. }
  assert (RF : k = lv -> rest_false t' C a b).
  { intros E x Hx Nx. destruct (wl_idx x Hx Nx) as (X1 & X2). pose proof (wl_others x Hx Nx) as X3.
    specialize (V2 x Hx X3). rewrite (cut_false t k t'), !(cut_lidx t k t') by (auto; lia).
    split; auto. apply (an_false _ _ _ HA); auto. }
  assert (JB : TB t' k (fun _ => False)) by (eapply cut_TB; eauto; lia).
  split; fold t'; rewrite ?Elv; auto.
  - split; auto.
    + intros n D Hn. rewrite Ecl in Hn. apply cases_snoc in Hn. destruct Hn as [(Hl & Hn)|(-> & ->)].
      * split.
        -- intros L1 _. rewrite Ew0, updn_other by lia. fold t'. eauto.
        -- intros w o P Fw _. fold t' in Fw |- *. eauto.
      * split.
        -- intros L1 P. rewrite Elv in P. rewrite LV in HK. destruct (Nat.ltb_spec 1 (length C)); lia.
        -- intros w o P Fw Lw. fold t' in Fw, Lw |- *. rewrite Elv in Lw. destruct (PN w o P) as (L2 & [(-> & ->)|(-> & ->)]).
           ++ apply lit_false_un in Fw. congruence.
           ++ destruct (Fb L2 Fw). lia.
    + intros _ n D Hn. rewrite Ecl in Hn. apply cases_snoc in Hn. destruct Hn as [(Hl & Hn)|(-> & ->)].
      * split.
        -- intros L1. left. rewrite Ew0, updn_other by lia. fold t'. eauto.
        -- intros w o P Fw. left. fold t' in Fw |- *. eauto.
      * split.
        -- intros L1. right. rewrite Ew0, updn_same. fold t'. rewrite LV in *.
           destruct (Nat.ltb_spec 1 (length C)); [lia|]. split; auto. split; [lia|]. left. rewrite Eul.
           destruct (Z.ltb_spec k 0); [lia|]. left; auto.
        -- intros w o P Fw. right. fold t' in Fw |- *. rewrite Elv. destruct (PN w o P) as (L2 & [(-> & ->)|(-> & ->)]).
           ++ apply lit_false_un in Fw. congruence.
           ++ destruct (Fb L2 Fw) as (E1 & E2). split; auto. split; auto. split; auto. left. rewrite Eul.
              destruct (Z.ltb_spec k lv); [lia|]. left; auto.
    + intros _ n Hn. rewrite Eul in Hn. destruct (Z.ltb_spec k lv) as [|K]; [destruct Hn|].
      destruct Hn as [<-|[]]. exists C. split.
      { rewrite Ecl, nth_error_app2, Nat.sub_diag; auto. }
      assert (E : k = lv) by lia. split.
      * intro L1. rewrite Elv, E, LV. destruct (Nat.ltb_spec 1 (length C)); [lia|auto].
      * intro L2. destruct (W2 L2) as (Ib & Nb & _).
        exists b, a. fold t'. rewrite Elv. split.
        { split; auto. rewrite Ew0, Ew1, !updn_same. auto. }
        split; [|split; auto].
        -- apply RF; auto.
        -- rewrite (cut_llev t k t'); auto; [|rewrite <- V4; auto; lia]. rewrite <- V4; auto.
    + congruence.
  - eapply TB_weaken; [exact JB|]. tauto.
  - apply (cut_TD t k t' (level s) (fun _ => True)); auto. lia.
  - lia.
Qed.

End WJump.

(** ** The conflict branch *)

Lemma wl_conflict_ok c r rc s :
  watch c = true -> lenient c = true -> WCS s -> TR (tr s) (cl s) -> conflict s = true -> 1 <= level s ->
  exists N C lv s' rc', (forall fuel, (N <= fuel)%nat -> wl_conflict fuel c r rc s = Ok (s', rc')) /\
    jumped c r rc s C lv s' rc' /\ WCS s'.
Proof.
  intros W Le H HT Cf HL.
  pose proof (wc_J _ H) as HJ. pose proof (WCS_ws _ H) as HS.
  destruct (jw_conf _ _ HJ Cf) as (D & HD & FD & M0 & M1).
  assert (HB : TB (tr s) (level s) (fun _ => True)).
  { eapply TB_weaken; [apply (wc_TB _ H)|auto]. }
  assert (D0 : DOM (tr s) 0 = 0) by apply HB.
  assert (InD : In D (cl s)) by (eapply nth_error_In; eauto).
  pose proof (JW_CLO _ _ HJ) as CL.
  destruct (conflict_an (tr s) (level s) (fun _ => True) (cl s) D) as (A0 & E0 & T0); auto.
  { apply (ws_ok _ HS). } { apply (ws_nd _ HS); auto. }
  assert (WO : watched_ok (tr s) D (w0 s (confcl s)) (w1 s (confcl s))).
  { split; [split; auto; apply (ws_w0 _ HS); auto|]. split.
    - intro L2. destruct (ws_w1 _ HS _ _ HD L2). auto.
    - intro L1. eapply ws_w1n; eauto. }
  destruct (analyze_ok (tr s) (cl s) (level s) (fun _ => True) HB (wc_TD _ H) HT (ws_ok _ HS) HL
              c s D (w0 s (confcl s)) (w1 s (confcl s)) false D0 eq_refl eq_refl eq_refl A0 E0)
    as (N & C & a & b & AE & A & EN & O & WO'); auto.
  specialize (WO' W).
  destruct (learn_clause_ok c s C a b Le D0) as (s1 & E1 & L1).
  { apply (an_range _ _ _ A). }
  { intros _. split; [apply WO'|]. intro L2. apply WO'; auto. }
  assert (T1 := le_tr _ _ _ _ _ _ L1).
  set (lv := if Nat.ltb 1 (length C) then llev (tr s) b else 0).
  pose proof (wl_lv s C a b lv HB (wc_TD _ H) HL A O WO' eq_refl) as (V1 & V2 & V3 & V4).
  assert (FR : fresh (cl s) C).
  { eapply learned_fresh; eauto. apply (ws_nd _ HS). }
  set (s2 := set_conflict (set_backtracks (set_level s1 lv) (backtracks s1 + 1)) false).
  set (k := if backtracks s + 1 =? rc then 0 else lv).
  assert (K : 0 <= k <= lv) by (unfold k; destruct (_ =? rc); lia).
  destruct (wundo_theory_ok s2 k) as (t' & E3 & CT).
  { simpl. rewrite T1. auto. }
  { simpl. rewrite T1. apply (wc_TD _ H). }
  set (s3 := set_tr s2 t') in *.
  assert (CT' : cut (tr s) k t') by (rewrite <- T1; exact CT).
  assert (B1 : backtracks s1 + 1 = backtracks s + 1) by (rewrite (le_backtracks _ _ _ _ _ _ L1); auto).
  set (ul := if k <? lv then [] else [length (cl s)]).
  set (s' := set_level (set_ulist (set_restarts s3 (if backtracks s + 1 =? rc then restarts s + 1 else restarts s)) ul) k).
  set (rc' := if backtracks s + 1 =? rc then backtracks s + 1 + r else rc).
  exists N, C, lv, s', rc'. split; [|split].
  - intros fuel Hf. unfold wl_conflict. unfold getcl. rewrite HD. cbn [bind].
    rewrite (AE fuel Hf). cbn [bind]. rewrite E1. cbn [bind].
    change (fst (C, (a, b))) with C. change (snd (snd (C, (a, b)))) with b.
    assert (EL : (if Nat.ltb 1 (length C) then do* chk (tr s1) b in Ok (llev (tr s1) b) else Ok 0) = Ok lv).
    { unfold lv. destruct (Nat.ltb_spec 1 (length C)); auto. rewrite T1, chk_ok; auto.
      apply (an_range _ _ _ A). apply WO'; auto. }
    rewrite EL. cbn [bind]. cbv zeta.
    change (set_conflict (set_backtracks (set_level s1 lv) (backtracks (set_level s1 lv) + 1)) false) with s2.
    change (backtracks s2) with (backtracks s1 + 1). rewrite B1.
    assert (LN : Nat.pred (length (cl s3)) = length (cl s)).
    { change (cl s3) with (cl s1). rewrite (le_cl _ _ _ _ _ _ L1), app_length. simpl. lia. }
    unfold s', rc', ul, k in *. destruct (backtracks s + 1 =? rc) eqn:EB.
    + rewrite E3. cbn [bind]. fold s3. f_equal. f_equal.
      * change (restarts s3) with (restarts s1). rewrite (le_restarts _ _ _ _ _ _ L1).
        change (level (set_restarts s3 (restarts s + 1))) with lv. unfold only_last.
        change (cl (set_restarts s3 (restarts s + 1))) with (cl s3). rewrite LN.
        destruct (Z.eqb_spec lv 0) as [->|Nz]; [reflexivity|].
        destruct (Z.ltb_spec 0 lv); [reflexivity|lia].
      * change (backtracks s3) with (backtracks s1 + 1). lia.
    + change (level s2) with lv. rewrite E3. cbn [bind]. fold s3. unfold only_last. rewrite LN.
      rewrite Z.ltb_irrefl. f_equal. f_equal.
      unfold s3, s2. rewrite <- (le_restarts _ _ _ _ _ _ L1). destruct s1; reflexivity.
  - split; auto.
    + exact (le_cl _ _ _ _ _ _ L1).
    + intro X. exact (le_vs _ _ _ _ _ _ L1 X).
    + exact (le_decisions _ _ _ _ _ _ L1).
    + exact (le_tick _ _ _ _ _ _ L1).
  - assert (S1 : WS s1).
    { apply (learnt_WS c s C a b); auto.
      - apply (an_range _ _ _ A).
      - apply (an_nodup _ _ _ A).
      - apply WO'.
      - intro L2. destruct WO' as (_ & X & _). destruct (X L2) as (X1 & X2 & _). auto.
      - apply WO'. }
    apply (wjump s s' C a b k lv); auto.
    + apply (wc_TD _ H).
    + destruct S1 as [x1 x2 x3 x4 x5 x6 x7]. split; auto.
      intros E l HE Hl. unfold lrange. change (tr s') with t'. rewrite (cut_range _ _ _ _ _ CT'). rewrite <- T1.
      apply (x1 E); auto.
    + exact (le_cl _ _ _ _ _ _ L1).
    + exact (le_w0 _ _ _ _ _ _ L1).
    + exact (le_w1 _ _ _ _ _ _ L1).
Qed.

(** ** The invariant of the loop *)

Record WI (t0 : trail) (cs0 : list clause) (s : state) : Prop := mkWI {
  wi_CS : WCS s;
  wi_TR : TR (tr s) (cl s);
  wi_sc : scores_ok s;
  wi_nv : NV (tr s) = NV t0;
  wi_dom : DOM (tr s) = DOM t0;
  wi_cl : exists ls, cl s = cs0 ++ ls /\ backtracks s = Z.of_nat (length ls);
  wi_ent : forall D, In D (cl s) -> entailed t0 cs0 D
}.

Record wcs_eq (s s' : state) : Prop := mkWcseq {
  we_tr : tr s' = tr s; we_cl : cl s' = cl s; we_w0 : w0 s' = w0 s; we_w1 : w1 s' = w1 s;
  we_wls : wls s' = wls s; we_ulist : ulist s' = ulist s; we_conf : conflict s' = conflict s;
  we_confcl : confcl s' = confcl s; we_level : level s' = level s
}.

Lemma WCS_eq s s' : wcs_eq s s' -> WCS s -> WCS s'.
Proof.
  intros [E1 E2 E3 E4 E5 E6 E7 E8 E9] [[[a1 a2 a3 a4 a5 a6 a7] b1 b2 b3 b4] HB HD HL].
  split; rewrite ?E1, ?E7, ?E9; auto. split.
  - split; rewrite ?E1, ?E2, ?E3, ?E4, ?E5; auto.
  - unfold old, pair. rewrite E1, E2, E3, E4, E9. exact b1.
  - unfold good, pair. rewrite E1, E2, E3, E4, E6, E7, E9. exact b2.
  - unfold pendu, pair. rewrite E1, E2, E3, E4, E6, E7, E9. exact b3.
  - unfold confok. rewrite E1, E2, E3, E4, E7, E8. exact b4.
Qed.

Lemma WI_eq t0 cs0 s s' :
  WI t0 cs0 s -> wcs_eq s s' -> vs s' = vs s -> backtracks s' = backtracks s -> WI t0 cs0 s'.
Proof.
  intros [a1 a2 a4 a5 a6 a7 a8] E V B.
  split; rewrite ?(we_tr _ _ E), ?(we_cl _ _ E), ?B; auto.
  - apply (WCS_eq s); auto.
  - intro l. rewrite V. apply a4.
Qed.

Lemma wl_front_ok c r rc s t0 cs0 :
  watch c = true -> lenient c = true -> WI t0 cs0 s -> rs_ok r rc s ->
  (conflict s = true -> 1 <= level s) ->
  exists N s' rc', (forall fuel, (N <= fuel)%nat -> wl_front fuel c r rc s = Ok (s', rc')) /\
    WI t0 cs0 s' /\ rs_ok r rc' s' /\ (conflict s' = true \/ ulist s' = []) /\ tick s' = tick s /\
    ((uncovered t0 (cl s') < uncovered t0 (cl s))%nat \/
     conflict s = false /\ cl s' = cl s /\ (unass (tr s') <= unass (tr s))%nat).
Proof.
  intros W Le H RS HL.
  assert (P : exists N s1 rc1,
    (forall fuel, (N <= fuel)%nat -> (if conflict s then wl_conflict fuel c r rc s else Ok (s, rc)) = Ok (s1, rc1)) /\
    WI t0 cs0 s1 /\ rs_ok r rc1 s1 /\ tick s1 = tick s /\
    ((uncovered t0 (cl s1) < uncovered t0 (cl s))%nat \/ conflict s = false /\ s1 = s)).
  { destruct (conflict s) eqn:Cf.
    - destruct (wl_conflict_ok c r rc s W Le (wi_CS _ _ _ H) (wi_TR _ _ _ H) Cf (HL eq_refl))
        as (N & C & lv & s1 & rc1 & E & J & H1).
      exists N, s1, rc1. split; auto.
      assert (RG : forall l, In l C -> lrange t0 l).
      { intros l Hl. pose proof (an_range _ _ _ (ju_an _ _ _ _ _ _ _ _ J) l Hl) as X.
        unfold lrange, range in *. rewrite (wi_nv _ _ _ H), (wi_dom _ _ _ H) in X. auto. }
      split; [|split; [|split]].
      + pose proof (cut_nv _ _ _ (ju_cut _ _ _ _ _ _ _ _ J)) as CN.
        pose proof (cut_dom _ _ _ (ju_cut _ _ _ _ _ _ _ _ J)) as CD.
        assert (OK : cls_ok (tr s) (cl s ++ [C])).
        { intros D l HD Hl. apply in_app_iff in HD. destruct HD as [HD|[<-|[]]].
          - apply (ws_ok _ (WCS_ws _ (wi_CS _ _ _ H)) D); auto.
          - apply (an_range _ _ _ (ju_an _ _ _ _ _ _ _ _ J)); auto. }
        split; auto.
        * rewrite (ju_cl _ _ _ _ _ _ _ _ J).
          eapply (cut_TR (tr s) (level s1) (tr s1) (level s)); eauto.
          -- apply (wc_TB _ (wi_CS _ _ _ H)).
          -- apply (wc_TD _ (wi_CS _ _ _ H)).
          -- apply TR_app. apply (wi_TR _ _ _ H).
          -- apply (ju_cut _ _ _ _ _ _ _ _ J).
          -- pose proof (wc_lev _ H1). lia.
        * apply (ju_vs _ _ _ _ _ _ _ _ J). apply (wi_sc _ _ _ H).
        * rewrite CN. apply (wi_nv _ _ _ H).
        * rewrite CD. apply (wi_dom _ _ _ H).
        * destruct (wi_cl _ _ _ H) as (ls & E1 & E2). exists (ls ++ [C]).
          rewrite (ju_cl _ _ _ _ _ _ _ _ J), E1, app_assoc. split; auto.
          rewrite (ju_backtracks _ _ _ _ _ _ _ _ J), E2, app_length. simpl. lia.
        * rewrite (ju_cl _ _ _ _ _ _ _ _ J). intros D HD. apply in_app_iff in HD.
          destruct HD as [HD|[<-|[]]]; [apply (wi_ent _ _ _ H); auto|].
          intros a La Ha. apply (ju_ent _ _ _ _ _ _ _ _ J).
          -- apply (legalT_dom a t0); auto; [apply (wi_nv _ _ _ H)|apply (wi_dom _ _ _ H)].
          -- intros F HF. apply (wi_ent _ _ _ H F HF); auto.
      + destruct RS as (R1 & R2). unfold rs_ok.
        rewrite (ju_backtracks _ _ _ _ _ _ _ _ J), (ju_restarts _ _ _ _ _ _ _ _ J), (ju_rc _ _ _ _ _ _ _ _ J).
        destruct (wi_cl _ _ _ H) as (ls & _ & BB).
        split; intro X.
        * destruct (R1 X) as (E1 & E2). destruct (Z.eqb_spec (backtracks s + 1) rc) as [EE|EE]; [|lia].
          split; nia.
        * destruct (R2 X) as (E1 & E2). destruct (Z.eqb_spec (backtracks s + 1) rc) as [EE|EE]; lia.
      + apply (ju_tick _ _ _ _ _ _ _ _ J).
      + left. rewrite (ju_cl _ _ _ _ _ _ _ _ J). apply uncovered_lt; auto.
        apply (ju_fresh _ _ _ _ _ _ _ _ J).
    - exists 0%nat, s, rc. conj; auto. }
  destruct P as (N1 & s1 & rc1 & E1 & H1 & RS1 & T1 & M1).
  assert (Q : exists N s2, (forall fuel, (N <= fuel)%nat ->
       match ulist s1 with [] => Ok s1 | _ => wunit_propagation fuel c s1 end = Ok s2) /\
     WI t0 cs0 s2 /\ fru s1 s2 /\ (conflict s2 = true \/ ulist s2 = []) /\ (unass (tr s2) <= unass (tr s1))%nat).
  { destruct (wunit_propagation_ok c s1 (wi_CS _ _ _ H1)) as (N & s2 & E2 & P).
    destruct P as (P1 & P2 & P3 & P4 & P5 & P6 & P7 & P8).
    destruct (ulist s1) as [|n ul] eqn:EU.
    - exists 0%nat, s1. conj; auto. apply fru_refl.
    - exists N, s2. conj; auto.
      pose proof (ext_nv _ _ P3). pose proof (ext_dom _ _ P3).
      pose proof (fu_cl _ _ P2) as FC.
      split; rewrite ?FC; auto.
      + apply P8. apply (wi_TR _ _ _ H1).
      + intro l. rewrite (fu_vs _ _ P2). apply (wi_sc _ _ _ H1).
      + rewrite H0. apply (wi_nv _ _ _ H1).
      + rewrite H2. apply (wi_dom _ _ _ H1).
      + rewrite (fu_backtracks _ _ P2). apply (wi_cl _ _ _ H1).
      + apply (wi_ent _ _ _ H1). }
  destruct Q as (N2 & s2 & E2 & H2 & F2 & C2 & U2).
  exists (Nat.max N1 N2), s2, rc1. conj; auto.
  - intros fuel Hf. unfold wl_front. rewrite E1 by lia. cbn [bind]. rewrite E2 by lia. reflexivity.
  - destruct RS1 as (X & Y). split; intro Z; rewrite (fu_restarts _ _ F2), ?(fu_backtracks _ _ F2); auto.
  - rewrite (fu_tick _ _ F2). auto.
  - rewrite (fu_cl _ _ F2). destruct M1 as [M1|(M1 & ->)]; auto.
Qed.

Definition wfinal_ok (c : cfg) (clk : nat -> bool) (t0 : trail) (cs0 : list clause) (tk : nat) (v : verdict) (s : state) : Prop :=
  WI t0 cs0 s /\ (tk <= tick s)%nat /\
  match v with
  | SAT => conflict s = false /\ all_sat s /\ (heur c <> Lazy -> total (tr s))
  | UNSAT => forall a, legalT a t0 -> ~ (forall D, In D cs0 -> clause_holds a D)
  | TIMEOUT => exists k, (tk <= k < tick s)%nat /\ clk k = true
  end.

Lemma wconflict_dead s : WCS s -> conflict s = true -> dead (tr s) (cl s).
Proof.
  intros H Cf a La Ha Aa. destruct (jw_conf _ _ (wc_J _ H) Cf) as (c & Hc & F & _).
  destruct (Ha c) as (l & Hl & Tl); [eapply nth_error_In; eauto|].
  apply (agree_false a (tr s) l); auto. eapply WCS_clause; eauto.
Qed.

Lemma wl_iter_ok c clk r rc s t0 cs0 :
  watch c = true -> lenient c = true -> heur c <> BK -> WI t0 cs0 s -> rs_ok r rc s ->
  exists N x, (forall fuel, (N <= fuel)%nat -> wl_iter fuel c clk r rc s = Ok x) /\
    match x with
    | inl (v, s') => wfinal_ok c clk t0 cs0 (tick s) v s' /\ (exists rc', rs_ok r rc' s')
    | inr (rc', s') => WI t0 cs0 s' /\ rs_ok r rc' s' /\ (tick s <= tick s')%nat /\
        ((uncovered t0 (cl s') < uncovered t0 (cl s))%nat \/
         cl s' = cl s /\ (weight s' < weight s)%nat)
    end.
Proof.
  intros W Le NB H RS. unfold wl_iter, check_time.
  set (s0 := set_tick s (S (tick s))).
  assert (H0 : WI t0 cs0 s0) by (apply (WI_eq t0 cs0 s); auto; split; reflexivity).
  assert (RS0 : rs_ok r rc s0) by exact RS.
  destruct (clk (tick s)) eqn:CK.
  { exists 0%nat. eexists. split; [reflexivity|]. split; [|eauto]. split; auto. split; [simpl; lia|].
    exists (tick s). split; auto. }
  destruct (conflict s0 && (level s0 =? 0)) eqn:CL.
  { apply andb_true_iff in CL. destruct CL as (Cf & L0). apply Z.eqb_eq in L0.
    exists 0%nat. eexists. split; [reflexivity|]. split; [|eauto]. split; auto. split; [simpl; lia|].
    intros a La Ha.
    assert (La' : legalT a (tr s0)).
    { apply (legalT_dom a t0); auto; [apply (wi_nv _ _ _ H0)|apply (wi_dom _ _ _ H0)]. }
    assert (Ha' : forall D, In D (cl s0) -> clause_holds a D).
    { intros D HD. apply (wi_ent _ _ _ H0 D HD); auto. }
    apply (wconflict_dead s0 (wi_CS _ _ _ H0) Cf a La' Ha').
    pose proof (wc_TB _ (wi_CS _ _ _ H0)) as TB0. rewrite L0 in TB0.
    eapply zero_agree; eauto.
    - apply (wc_TD _ (wi_CS _ _ _ H0)).
    - apply (wi_TR _ _ _ H0).
    - apply (ws_ok _ (WCS_ws _ (wi_CS _ _ _ H0))). }
  assert (HL : conflict s0 = true -> 1 <= level s0).
  { intro Cf. rewrite Cf in CL. simpl in CL. apply Z.eqb_neq in CL.
    pose proof (wc_lev _ (wi_CS _ _ _ H0)). simpl in *. lia. }
  destruct (wl_front_ok c r rc s0 t0 cs0 W Le H0 RS0 HL) as (N & s1 & rc1 & E1 & H1 & RS1 & C1 & T1 & M1).
  destruct (conflict s1) eqn:Cf1.
  { exists N. eexists. split; [intros fuel Hf; rewrite E1 by auto; cbn [bind]; rewrite Cf1; reflexivity|].
    cbv beta iota. split; auto. split; auto. split; [rewrite T1; simpl; lia|].
    destruct M1 as [M1|(M1 & M2 & M3)]; auto. right. split; auto.
    unfold weight. rewrite Cf1. change (conflict s) with (conflict s0). rewrite M1.
    change (tr s0) with (tr s) in M3. lia. }
  assert (Ul : ulist s1 = []) by (destruct C1; auto; discriminate).
  destruct (choose_wl_ok c s1 NB (wi_CS _ _ _ H1) Cf1 Ul (wi_sc _ _ _ H1)) as (q & l & EC & P).
  destruct P as [(P1 & P2 & P3)|(P1 & P2 & P3)].
  { exists N. eexists. split.
    { intros fuel Hf. rewrite E1 by auto. cbn [bind]. rewrite Cf1, EC. cbn [bind]. rewrite P1. reflexivity. }
    split; [|exists rc1; exact RS1]. split.
    - apply (WI_eq t0 cs0 s1); auto. split; reflexivity.
    - split; [simpl; rewrite T1; simpl; lia|]. simpl. auto. }
  destruct (wdecide_ok c s1 l (decisions s1 + 1) (wi_CS _ _ _ H1) Cf1 Ul P2 P3)
    as (s2 & E2 & H2 & L2 & F2 & X2 & V2 & U2 & Tr2 & R2).
  exists N. eexists. split.
  { intros fuel Hf. rewrite E1 by auto. cbn [bind]. rewrite Cf1, EC. cbn [bind].
    destruct (Z.eqb_spec (lvar l) (-1)); [congruence|]. unfold wl_decide. cbv zeta.
    match goal with |- context [wreduce_theory c ?z l] =>
      replace z with (at_next s1 RDec (decisions s1 + 1)) by reflexivity end.
    rewrite E2. cbn [bind]. reflexivity. }
  cbv beta iota.
  assert (C2 : cl s2 = cl s1) by (rewrite (fr_cl _ _ F2); reflexivity).
  split; [|split; [|split]].
  - pose proof (ext_nv _ _ X2). pose proof (ext_dom _ _ X2).
    split; rewrite ?C2; auto.
    + rewrite <- C2. apply R2; auto. apply (wi_TR _ _ _ H1).
    + intro x. rewrite (fr_vs _ _ F2). apply (wi_sc _ _ _ H1).
    + rewrite H3. apply (wi_nv _ _ _ H1).
    + rewrite H4. apply (wi_dom _ _ _ H1).
    + rewrite (fr_backtracks _ _ F2). apply (wi_cl _ _ _ H1).
    + apply (wi_ent _ _ _ H1).
  - destruct RS1 as (X & Y). split; intro Z; rewrite (fr_restarts _ _ F2), ?(fr_backtracks _ _ F2); auto.
  - rewrite (fr_tick _ _ F2). simpl. rewrite T1. simpl. lia.
  - rewrite C2. destruct M1 as [M1|(M1 & M2 & M3)]; auto. right. split; auto.
    unfold weight. change (conflict s) with (conflict s0). rewrite M1.
    change (tr s0) with (tr s) in M3. destruct (conflict s2); lia.
Qed.

Lemma wl_loop_ok c clk r t0 cs0 s rc :
  watch c = true -> lenient c = true -> heur c <> BK -> WI t0 cs0 s -> rs_ok r rc s ->
  exists N v s', (forall fuel, (N <= fuel)%nat -> wl_loop fuel c clk r rc s = Ok (v, s')) /\
    wfinal_ok c clk t0 cs0 (tick s) v s' /\ exists rc', rs_ok r rc' s'.
Proof.
  intros W Le NB.
  assert (G : forall m u s rc, uncovered t0 (cl s) = m -> weight s = u -> WI t0 cs0 s -> rs_ok r rc s ->
    exists N v s', (forall fuel, (N <= fuel)%nat -> wl_loop fuel c clk r rc s = Ok (v, s')) /\
      wfinal_ok c clk t0 cs0 (tick s) v s' /\ exists rc', rs_ok r rc' s').
  { induction m as [m IHm] using lt_wf_ind. induction u as [u IHu] using lt_wf_ind.
    clear s rc. intros s rc Em Eu H RS.
    destruct (wl_iter_ok c clk r rc s t0 cs0 W Le NB H RS) as (N & x & E & P).
    destruct x as [(v, s')|(rc', s')].
    - exists (S N), v, s'. split; auto. intros fuel Hf. destruct fuel as [|fuel]; [lia|].
      rewrite wl_loop_iter, E by lia. reflexivity.
    - destruct P as (P1 & P2 & P3 & P4).
      assert (REC : exists N v s'', (forall fuel, (N <= fuel)%nat -> wl_loop fuel c clk r rc' s' = Ok (v, s'')) /\
        wfinal_ok c clk t0 cs0 (tick s') v s'' /\ exists rc'', rs_ok r rc'' s'').
      { destruct P4 as [P4|(P4 & P5)].
        - apply (IHm (uncovered t0 (cl s'))) with (u := weight s'); auto. lia.
        - apply (IHu (weight s')); auto; [lia|]. rewrite P4; auto. }
      destruct REC as (N' & v & s'' & E' & F & RS').
      exists (S (Nat.max N N')), v, s''. split; [|split; auto].
      + intros fuel Hf. destruct fuel as [|fuel]; [lia|].
        rewrite wl_loop_iter, E by lia. cbn [bind]. apply E'. lia.
      + destruct F as (F1 & F2 & F3). split; auto. split; [lia|].
        destruct v; auto. destruct F3 as (k & K1 & K2). exists k. split; auto. lia. }
  intros H RS. eapply G; eauto.
Qed.
