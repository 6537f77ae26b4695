(** * Non-chronological search with counters *)

From Coq Require Import Floats.SpecFloat.
From Verif Require Import Spec Outcome State ModelCounter ModelHeur ModelLearn ModelWatch
  ModelSearch Base Trail Reduce Counter CounterUndo Propagate Choose Scores Chrono Analyze Learn Cdcl.

(** ** One iteration of the loop of NonChronoBacktrack *)

(** Conflict handling and propagation, Formula.cc:1473-1506. *)
Definition nc_front (fuel : nat) (c : cfg) (r rc : Z) (s : state) : outcome (state * Z) :=
  let* p := if conflict s then nc_conflict fuel c r rc s else Ok (s, rc) in
  let (s, rc) := p in
  let* s := match ulist s with
            | [] => Ok s
            | _ => unit_propagation fuel c s
            end in
  Ok (s, rc).

(** One iteration: a verdict, or the next value of restartCount and the next state. *)
Definition nc_iter (fuel : nat) (c : cfg) (clk : nat -> bool) (r rc : Z) (s : state)
  : outcome ((verdict * state) + (Z * state)) :=
  let (late, s) := check_time clk s in
  if late then Ok (inl (TIMEOUT, s))
  else if conflict s && (level s =? 0) then Ok (inl (UNSAT, s))
  else
    let* p := nc_front fuel c r rc s in
    let (s, rc) := p in
    if conflict s then Ok (inr (rc, s))
    else
      let* q := choose_nc c s in
      let (s, l) := q in
      if lvar l =? -1 then Ok (inl (SAT, s))
      else
        let* s := nc_decide c s l in
        Ok (inr (rc, s)).

Lemma nc_loop_iter fuel c clk r rc s :
  nc_loop (S fuel) c clk r rc s =
  (let* x := nc_iter (S fuel) c clk r rc s in
   match x with
   | inl y => Ok y
   | inr (rc, s) => nc_loop fuel c clk r rc s
   end).
Proof.
  cbn [nc_loop]. unfold nc_iter, nc_front. destruct (check_time clk s) as (late, s1).
  destruct late; auto. destruct (conflict s1 && (level s1 =? 0)); auto.
  destruct (if conflict s1 then nc_conflict (S fuel) c r rc s1 else Ok (s1, rc)) as [[s2 rc2]|u|]; auto.
  cbn [bind].
  destruct (match ulist s2 with [] => Ok s2 | _ :: _ => unit_propagation (S fuel) c s2 end) as [s3|u|]; auto.
  cbn [bind]. destruct (conflict s3); auto.
  destruct (choose_nc c s3) as [[s4 l]|u|]; auto. cbn [bind].
  destruct (lvar l =? -1); auto. destruct (nc_decide c s4 l) as [s5|u|]; auto.
Qed.

(** ** The conflict branch *)

Record jumped (c : cfg) (r rc : Z) (s : state) (C : clause) (lv : Z) (s' : state) (rc' : Z) : Prop := mkJumped {
  ju_an : AN (tr s) (level s) C;
  ju_ent : entailed (tr s) (cl s) C;
  ju_one : one_at (tr s) (level s) C;
  ju_fresh : fresh (cl s) C;
  ju_lv : 0 <= lv < level s;
  ju_lv1 : forall x, In x C -> llev (tr s) x < level s -> llev (tr s) x <= lv;
  ju_lv2 : lv = 0 \/ exists y, In y C /\ llev (tr s) y = lv;
  ju_level : level s' = if backtracks s + 1 =? rc then 0 else lv;
  ju_cut : cut (tr s) (level s') (tr s');
  ju_cl : cl s' = cl s ++ [C];
  ju_conf : conflict s' = false;
  ju_ulist : ulist s' = if level s' <? lv then [] else [length (cl s)];
  ju_vs : scores_ok s -> scores_ok s';
  ju_backtracks : backtracks s' = backtracks s + 1;
  ju_restarts : restarts s' = if backtracks s + 1 =? rc then restarts s + 1 else restarts s;
  ju_rc : rc' = if backtracks s + 1 =? rc then backtracks s + 1 + r else rc;
  ju_decisions : decisions s' = decisions s;
  ju_tick : tick s' = tick s
}.

(** The clause a search starts analysing. *)
Lemma conflict_an t lev ex cls D :
  TB t lev ex -> CLO t cls lev -> 1 <= lev -> cls_ok t cls -> In D cls -> NoDup D ->
  (forall l, In l D -> lit_false t l = true) ->
  AN t lev D /\ entailed t cls D /\ two_at t lev D.
Proof.
  intros HB HC HL HW HD ND F.
  assert (T : two_at t lev D).
  { destruct (clo_false t lev cls D) as (x & y & X); auto.
    - intros l Hl. split; auto. apply HB; [apply (HW D); auto|]. apply lit_false_as; auto.
    - exists x, y. tauto. }
  split; [|split; auto].
  - split; auto.
    + intros x Hx. apply (HW D); auto.
    + destruct T as (x & y & Hx & _ & _ & Lx & _). exists x; auto.
  - intros a _ Ha. auto.
Qed.

Lemma nc_conflict_ok c r rc s :
  watch c = false -> lenient c = true -> CS s -> TR (tr s) (cl s) ->
  (forall D, In D (cl s) -> NoDup D) -> conflict s = true -> 1 <= level s ->
  exists N C lv s' rc', (forall fuel, (N <= fuel)%nat -> nc_conflict fuel c r rc s = Ok (s', rc')) /\
    jumped c r rc s C lv s' rc' /\ CS s'.
Proof.
  intros W Le H HT ND Cf HL.
  destruct (conflict_false s H Cf) as (D & HD & FD).
  assert (HB : TB (tr s) (level s) (fun _ => True)).
  { eapply TB_weaken; [apply (cs_TB _ H)|auto]. }
  assert (D0 : DOM (tr s) 0 = 0) by apply HB.
  assert (InD : In D (cl s)) by (eapply nth_error_In; eauto).
  destruct (conflict_an (tr s) (level s) (fun _ => True) (cl s) D) as (A0 & E0 & T0); auto.
  { apply (cs_clo _ H). } { apply (si_ok _ (CS_si _ H)). }
  destruct (analyze_ok (tr s) (cl s) (level s) (fun _ => True) HB (cs_TD _ H) HT (si_ok _ (CS_si _ H)) HL
              c s D (w0 s (confcl s)) (w1 s (confcl s)) false D0 eq_refl eq_refl eq_refl A0 E0)
    as (N & C & a & b & AE & A & EN & O & _); auto; [congruence|].
  destruct (learn_clause_ok c s C a b Le D0) as (s1 & E1 & L1); [apply (an_range _ _ _ A)|congruence|].
  assert (T1 := le_tr _ _ _ _ _ _ L1).
  destruct (backtrack_level_ok s1 C) as (lv & E2 & V1 & V2 & V3).
  { rewrite T1; auto. }
  { rewrite T1. intros l Hl. split; [apply (an_range _ _ _ A); auto|].
    apply (an_le (tr s) (level s) (fun _ => True) HB C l A Hl). }
  { rewrite (le_level _ _ _ _ _ _ L1). auto. }
  rewrite (le_level _ _ _ _ _ _ L1), T1 in *.
  assert (S1 : SI s1).
  { apply (learnt_SI c s C a b); auto; [apply (CS_si _ H)|eapply an_ne; eauto|apply (an_range _ _ _ A)]. }
  assert (I1 : CI s1).
  { apply (learnt_CI c s C a b); auto; [apply (CS_ci _ H)|apply (an_false _ _ _ A)]. }
  assert (FR : fresh (cl s) C).
  { eapply learned_fresh; eauto. apply (cs_clo _ H). }
  set (s2 := set_conflict (set_backtracks (set_level s1 lv) (backtracks s1 + 1)) false).
  set (k := if backtracks s + 1 =? rc then 0 else lv).
  assert (K : 0 <= k <= lv) by (unfold k; destruct (_ =? rc); lia).
  assert (K0 : k < lv -> k = 0) by (unfold k; destruct (_ =? rc); lia).
  destruct (undo_theory_ok c s2 k (level s) (fun _ => True)) as (t' & x & y & z & E3 & CT & CI3).
  { destruct S1; split; auto. }
  { exact I1. }
  { simpl. rewrite T1. auto. }
  { simpl. rewrite T1. apply (cs_TD _ H). }
  { lia. }
  set (s3 := set_cnt (set_clev (set_num (set_tr s2 t') x) y) z) in *.
  assert (CT' : cut (tr s) k t') by (rewrite <- T1; exact CT).
  assert (B1 : backtracks s1 + 1 = backtracks s + 1) by (rewrite (le_backtracks _ _ _ _ _ _ L1); auto).
  set (ul := if k <? lv then [] else [length (cl s)]).
  set (s' := set_level (set_ulist (set_restarts s3 (if backtracks s + 1 =? rc then restarts s + 1 else restarts s)) ul) k).
  set (rc' := if backtracks s + 1 =? rc then backtracks s + 1 + r else rc).
  exists N, C, lv, s', rc'. split.
  - intros fuel Hf. unfold nc_conflict. unfold getcl. rewrite HD. cbn [bind].
    rewrite (AE fuel Hf). cbn [bind]. rewrite E1. cbn [bind].
    change (fst (C, (a, b))) with C. rewrite E2. cbn [bind]. cbv zeta.
    change (set_conflict (set_backtracks (set_level s1 lv) (backtracks (set_level s1 lv) + 1)) false) with s2.
    change (backtracks s2) with (backtracks s1 + 1). rewrite B1.
    assert (LN : Nat.pred (length (cl s3)) = length (cl s)).
    { change (cl s3) with (cl s1). rewrite (le_cl _ _ _ _ _ _ L1), app_length. simpl. lia. }
    unfold s', rc', ul, k in *. destruct (backtracks s + 1 =? rc) eqn:EB.
    + rewrite E3. cbn [bind]. fold s3. f_equal. f_equal.
      * change (restarts s3) with (restarts s1). rewrite (le_restarts _ _ _ _ _ _ L1).
        change (level (set_restarts s3 (restarts s + 1))) with lv. unfold only_last.
        change (cl (set_restarts s3 (restarts s + 1))) with (cl s3). rewrite LN.
        destruct (Z.eqb_spec lv 0) as [->|Nz]; [reflexivity|].
        destruct (Z.ltb_spec 0 lv); [reflexivity|lia].
      * change (backtracks s3) with (backtracks s1 + 1). lia.
    + change (level s2) with lv. rewrite E3. cbn [bind]. fold s3. unfold only_last. rewrite LN.
      rewrite Z.ltb_irrefl. f_equal. f_equal.
      unfold s3, s2. rewrite <- (le_restarts _ _ _ _ _ _ L1). destruct s1; reflexivity.
  - assert (J : jumped c r rc s C lv s' rc').
    { split; auto.
      - exact (le_cl _ _ _ _ _ _ L1).
      - intro X. exact (le_vs _ _ _ _ _ _ L1 X).
      - exact (le_decisions _ _ _ _ _ _ L1).
      - exact (le_tick _ _ _ _ _ _ L1). }
    split; auto.
    apply (jump_CS (tr s) t' (cl s) (level s) k lv C); auto.
    + apply (cs_TD _ H).
    + apply (cs_clo _ H).
    + apply (si_ok _ (CS_si _ H)).
    + assert (CW : cls_ok t' (cl s1)).
      { intros E l HE Hl. unfold lrange. rewrite (cut_range _ _ _ _ _ CT'). rewrite <- T1. apply (si_ok _ S1 E); auto. }
      destruct S1 as [a1 a2 a3 a4]. split; auto.
    + exact (le_cl _ _ _ _ _ _ L1).
Qed.

(** ** The invariant of the loop *)

Record NI (t0 : trail) (cs0 : list clause) (s : state) : Prop := mkNI {
  ni_CS : CS s;
  ni_TR : TR (tr s) (cl s);
  ni_nd : forall D, In D (cl s) -> NoDup D;
  ni_sc : scores_ok s;
  ni_nv : NV (tr s) = NV t0;
  ni_dom : DOM (tr s) = DOM t0;
  ni_cl : exists ls, cl s = cs0 ++ ls /\ backtracks s = Z.of_nat (length ls);
  ni_ent : forall D, In D (cl s) -> entailed t0 cs0 D
}.

(** The restart counter. *)
Definition rs_ok (r rc : Z) (s : state) : Prop :=
  (0 < r -> rc = r * (restarts s + 1) /\ r * restarts s <= backtracks s < rc) /\
  (r <= 0 -> rc = r /\ restarts s = 0).

Lemma NI_eq t0 cs0 s s' :
  NI t0 cs0 s -> cs_eq s s' -> vs s' = vs s -> backtracks s' = backtracks s -> NI t0 cs0 s'.
Proof.
  intros [a1 a2 a3 a4 a5 a6 a7 a8] E V B.
  split; rewrite ?(ce_tr _ _ E), ?(ce_cl _ _ E), ?B; auto.
  - apply (CS_eq s); auto.
  - intro l. rewrite V. apply a4.
Qed.

Lemma front_ok c r rc s t0 cs0 :
  watch c = false -> lenient c = true -> NI t0 cs0 s -> rs_ok r rc s ->
  (conflict s = true -> 1 <= level s) ->
  exists N s' rc', (forall fuel, (N <= fuel)%nat -> nc_front fuel c r rc s = Ok (s', rc')) /\
    NI t0 cs0 s' /\ rs_ok r rc' s' /\ (conflict s' = true \/ ulist s' = []) /\ tick s' = tick s /\
    ((uncovered t0 (cl s') < uncovered t0 (cl s))%nat \/
     conflict s = false /\ cl s' = cl s /\ (unass (tr s') <= unass (tr s))%nat).
Proof.
  intros W Le H RS HL.
  assert (P : exists N s1 rc1,
    (forall fuel, (N <= fuel)%nat -> (if conflict s then nc_conflict fuel c r rc s else Ok (s, rc)) = Ok (s1, rc1)) /\
    NI t0 cs0 s1 /\ rs_ok r rc1 s1 /\ tick s1 = tick s /\
    ((uncovered t0 (cl s1) < uncovered t0 (cl s))%nat \/ conflict s = false /\ s1 = s)).
  { destruct (conflict s) eqn:Cf.
    - destruct (nc_conflict_ok c r rc s W Le (ni_CS _ _ _ H) (ni_TR _ _ _ H) (ni_nd _ _ _ H) Cf (HL eq_refl))
        as (N & C & lv & s1 & rc1 & E & J & H1).
      exists N, s1, rc1. split; auto.
      assert (RG : forall l, In l C -> lrange t0 l).
      { intros l Hl. pose proof (an_range _ _ _ (ju_an _ _ _ _ _ _ _ _ J) l Hl) as X.
        unfold lrange, range in *. rewrite (ni_nv _ _ _ H), (ni_dom _ _ _ H) in X. auto. }
      split; [|split; [|split]].
      + pose proof (cut_nv _ _ _ (ju_cut _ _ _ _ _ _ _ _ J)) as CN.
        pose proof (cut_dom _ _ _ (ju_cut _ _ _ _ _ _ _ _ J)) as CD.
        assert (OK : cls_ok (tr s) (cl s ++ [C])).
        { intros D l HD Hl. apply in_app_iff in HD. destruct HD as [HD|[<-|[]]].
          - apply (si_ok _ (CS_si _ (ni_CS _ _ _ H)) D); auto.
          - apply (an_range _ _ _ (ju_an _ _ _ _ _ _ _ _ J)); auto. }
        split; auto.
        * rewrite (ju_cl _ _ _ _ _ _ _ _ J).
          eapply (cut_TR (tr s) (level s1) (tr s1) (level s)); eauto.
          -- apply (cs_TB _ (ni_CS _ _ _ H)).
          -- apply (cs_TD _ (ni_CS _ _ _ H)).
          -- apply TR_app. apply (ni_TR _ _ _ H).
          -- apply (ju_cut _ _ _ _ _ _ _ _ J).
          -- pose proof (cs_lev _ H1). lia.
        * rewrite (ju_cl _ _ _ _ _ _ _ _ J). intros D HD. apply in_app_iff in HD.
          destruct HD as [HD|[<-|[]]]; [apply (ni_nd _ _ _ H); auto|].
          apply (an_nodup _ _ _ (ju_an _ _ _ _ _ _ _ _ J)).
        * apply (ju_vs _ _ _ _ _ _ _ _ J). apply (ni_sc _ _ _ H).
        * rewrite CN. apply (ni_nv _ _ _ H).
        * rewrite CD. apply (ni_dom _ _ _ H).
        * destruct (ni_cl _ _ _ H) as (ls & E1 & E2). exists (ls ++ [C]).
          rewrite (ju_cl _ _ _ _ _ _ _ _ J), E1, app_assoc. split; auto.
          rewrite (ju_backtracks _ _ _ _ _ _ _ _ J), E2, app_length. simpl. lia.
        * rewrite (ju_cl _ _ _ _ _ _ _ _ J). intros D HD. apply in_app_iff in HD.
          destruct HD as [HD|[<-|[]]]; [apply (ni_ent _ _ _ H); auto|].
          intros a La Ha. apply (ju_ent _ _ _ _ _ _ _ _ J).
          -- apply (legalT_dom a t0); auto; [apply (ni_nv _ _ _ H)|apply (ni_dom _ _ _ H)].
          -- intros F HF. apply (ni_ent _ _ _ H F HF); auto.
      + destruct RS as (R1 & R2). unfold rs_ok.
        rewrite (ju_backtracks _ _ _ _ _ _ _ _ J), (ju_restarts _ _ _ _ _ _ _ _ J), (ju_rc _ _ _ _ _ _ _ _ J).
        destruct (ni_cl _ _ _ H) as (ls & _ & BB).
        split; intro X.
        * destruct (R1 X) as (E1 & E2). destruct (Z.eqb_spec (backtracks s + 1) rc) as [EE|EE]; [|lia].
          split; nia.
        * destruct (R2 X) as (E1 & E2). destruct (Z.eqb_spec (backtracks s + 1) rc) as [EE|EE]; lia.
      + apply (ju_tick _ _ _ _ _ _ _ _ J).
      + left. rewrite (ju_cl _ _ _ _ _ _ _ _ J). apply uncovered_lt; auto.
        apply (ju_fresh _ _ _ _ _ _ _ _ J).
    - exists 0%nat, s, rc. conj; auto. }
  destruct P as (N1 & s1 & rc1 & E1 & H1 & RS1 & T1 & M1).
  assert (Q : exists N s2, (forall fuel, (N <= fuel)%nat ->
       match ulist s1 with [] => Ok s1 | _ => unit_propagation fuel c s1 end = Ok s2) /\
     NI t0 cs0 s2 /\ fru s1 s2 /\ (conflict s2 = true \/ ulist s2 = []) /\ (unass (tr s2) <= unass (tr s1))%nat).
  { destruct (unit_propagation_ok c s1 (ni_CS _ _ _ H1)) as (N & s2 & E2 & P).
    destruct P as (P1 & P2 & P3 & P4 & P5 & P6 & P7 & P8).
    destruct (ulist s1) as [|n ul] eqn:EU.
    - exists 0%nat, s1. conj; auto. apply fru_refl.
    - exists N, s2. conj; auto.
      pose proof (ext_nv _ _ P3). pose proof (ext_dom _ _ P3).
      pose proof (fu_cl _ _ P2) as FC.
      split; rewrite ?FC; auto.
      + apply P8; [apply (ni_nd _ _ _ H1)|apply (ni_TR _ _ _ H1)].
      + apply (ni_nd _ _ _ H1).
      + intro l. rewrite (fu_vs _ _ P2). apply (ni_sc _ _ _ H1).
      + rewrite H0. apply (ni_nv _ _ _ H1).
      + rewrite H2. apply (ni_dom _ _ _ H1).
      + rewrite (fu_backtracks _ _ P2). apply (ni_cl _ _ _ H1).
      + apply (ni_ent _ _ _ H1). }
  destruct Q as (N2 & s2 & E2 & H2 & F2 & C2 & U2).
  exists (Nat.max N1 N2), s2, rc1. conj; auto.
  - intros fuel Hf. unfold nc_front. rewrite E1 by lia. cbn [bind]. rewrite E2 by lia. reflexivity.
  - destruct RS1 as (X & Y). split; intro Z; rewrite (fu_restarts _ _ F2), ?(fu_backtracks _ _ F2); auto.
  - rewrite (fu_tick _ _ F2). auto.
  - rewrite (fu_cl _ _ F2). destruct M1 as [M1|(M1 & ->)]; auto.
Qed.

(** Lexicographic decrease. *)
Definition weight (s : state) : nat := (2 * unass (tr s) + (if conflict s then 0 else 1))%nat.

Definition final_ok (c : cfg) (clk : nat -> bool) (t0 : trail) (cs0 : list clause) (tk : nat) (v : verdict) (s : state) : Prop :=
  NI t0 cs0 s /\ (tk <= tick s)%nat /\
  match v with
  | SAT => conflict s = false /\ all_sat s /\ (heur c <> Lazy -> total (tr s))
  | UNSAT => forall a, legalT a t0 -> ~ (forall D, In D cs0 -> clause_holds a D)
  | TIMEOUT => exists k, (tk <= k < tick s)%nat /\ clk k = true
  end.

Lemma iter_ok c clk r rc s t0 cs0 :
  watch c = false -> lenient c = true -> NI t0 cs0 s -> rs_ok r rc s ->
  exists N x, (forall fuel, (N <= fuel)%nat -> nc_iter fuel c clk r rc s = Ok x) /\
    match x with
    | inl (v, s') => final_ok c clk t0 cs0 (tick s) v s' /\ (exists rc', rs_ok r rc' s')
    | inr (rc', s') => NI t0 cs0 s' /\ rs_ok r rc' s' /\ (tick s <= tick s')%nat /\
        ((uncovered t0 (cl s') < uncovered t0 (cl s))%nat \/
         cl s' = cl s /\ (weight s' < weight s)%nat)
    end.
Proof.
  intros W Le H RS. unfold nc_iter, check_time.
  set (s0 := set_tick s (S (tick s))).
  assert (H0 : NI t0 cs0 s0) by (apply (NI_eq t0 cs0 s); auto; split; reflexivity).
  assert (RS0 : rs_ok r rc s0) by exact RS.
  destruct (clk (tick s)) eqn:CK.
  { exists 0%nat. eexists. split; [reflexivity|]. split; [|eauto]. split; auto. split; [simpl; lia|].
    exists (tick s). split; auto. }
  destruct (conflict s0 && (level s0 =? 0)) eqn:CL.
  { apply andb_true_iff in CL. destruct CL as (Cf & L0). apply Z.eqb_eq in L0.
    exists 0%nat. eexists. split; [reflexivity|]. split; [|eauto]. split; auto. split; [simpl; lia|].
    intros a La Ha.
    assert (La' : legalT a (tr s0)).
    { apply (legalT_dom a t0); auto; [apply (ni_nv _ _ _ H0)|apply (ni_dom _ _ _ H0)]. }
    assert (Ha' : forall D, In D (cl s0) -> clause_holds a D).
    { intros D HD. apply (ni_ent _ _ _ H0 D HD); auto. }
    apply (conflict_dead s0 (ni_CS _ _ _ H0) Cf a La' Ha').
    pose proof (cs_TB _ (ni_CS _ _ _ H0)) as TB0. rewrite L0 in TB0.
    eapply zero_agree; eauto.
    - apply (cs_TD _ (ni_CS _ _ _ H0)).
    - apply (ni_TR _ _ _ H0).
    - apply (si_ok _ (CS_si _ (ni_CS _ _ _ H0))). }
  assert (HL : conflict s0 = true -> 1 <= level s0).
  { intro Cf. rewrite Cf in CL. simpl in CL. apply Z.eqb_neq in CL.
    pose proof (cs_lev _ (ni_CS _ _ _ H0)). simpl in *. lia. }
  destruct (front_ok c r rc s0 t0 cs0 W Le H0 RS0 HL) as (N & s1 & rc1 & E1 & H1 & RS1 & C1 & T1 & M1).
  destruct (conflict s1) eqn:Cf1.
  { exists N. eexists. split; [intros fuel Hf; rewrite E1 by auto; cbn [bind]; rewrite Cf1; reflexivity|].
    cbv beta iota. split; auto. split; auto. split; [rewrite T1; simpl; lia|].
    destruct M1 as [M1|(M1 & M2 & M3)]; auto. right. split; auto.
    unfold weight. rewrite Cf1. change (conflict s) with (conflict s0). rewrite M1.
    change (tr s0) with (tr s) in M3. lia. }
  assert (Ul : ulist s1 = []) by (destruct C1; auto; discriminate).
  destruct (choose_nc_ok c s1 (ni_CS _ _ _ H1) Cf1 Ul (ni_sc _ _ _ H1)) as (q & l & EC & P).
  destruct P as [(P1 & P2 & P3)|(P1 & P2 & P3)].
  { exists N. eexists. split.
    { intros fuel Hf. rewrite E1 by auto. cbn [bind]. rewrite Cf1, EC. cbn [bind]. rewrite P1. reflexivity. }
    split; [|exists rc1; exact RS1]. split.
    - apply (NI_eq t0 cs0 s1); auto. split; reflexivity.
    - split; [simpl; rewrite T1; simpl; lia|]. simpl. auto. }
  destruct (decide_ok c s1 l RDec (decisions s1 + 1) (ni_CS _ _ _ H1) Cf1 Ul P2 P3)
    as (s2 & E2 & H2 & L2 & F2 & X2 & V2 & U2 & Tr2 & R2 & _).
  exists N. eexists. split.
  { intros fuel Hf. rewrite E1 by auto. cbn [bind]. rewrite Cf1, EC. cbn [bind].
    destruct (Z.eqb_spec (lvar l) (-1)); [congruence|]. unfold nc_decide. cbv zeta.
    match goal with |- context [reduce_theory c ?z l] =>
      replace z with (at_next s1 RDec (decisions s1 + 1)) by reflexivity end.
    rewrite E2. cbn [bind]. reflexivity. }
  cbv beta iota.
  assert (C2 : cl s2 = cl s1) by (rewrite (fr_cl _ _ F2); reflexivity).
  split; [|split; [|split]].
  - pose proof (ext_nv _ _ X2). pose proof (ext_dom _ _ X2).
    split; rewrite ?C2; auto.
    + rewrite <- C2. apply R2; auto. apply (ni_TR _ _ _ H1).
    + apply (ni_nd _ _ _ H1).
    + intro x. rewrite (fr_vs _ _ F2). apply (ni_sc _ _ _ H1).
    + rewrite H3. apply (ni_nv _ _ _ H1).
    + rewrite H4. apply (ni_dom _ _ _ H1).
    + rewrite (fr_backtracks _ _ F2). apply (ni_cl _ _ _ H1).
    + apply (ni_ent _ _ _ H1).
  - destruct RS1 as (X & Y). split; intro Z; rewrite (fr_restarts _ _ F2), ?(fr_backtracks _ _ F2); auto.
  - rewrite (fr_tick _ _ F2). simpl. rewrite T1. simpl. lia.
  - rewrite C2. destruct M1 as [M1|(M1 & M2 & M3)]; auto. right. split; auto.
    unfold weight. change (conflict s) with (conflict s0). rewrite M1.
    change (tr s0) with (tr s) in M3. destruct (conflict s2); lia.
Qed.

Lemma nc_loop_ok c clk r t0 cs0 s rc :
  watch c = false -> lenient c = true -> NI t0 cs0 s -> rs_ok r rc s ->
  exists N v s', (forall fuel, (N <= fuel)%nat -> nc_loop fuel c clk r rc s = Ok (v, s')) /\
    final_ok c clk t0 cs0 (tick s) v s' /\ exists rc', rs_ok r rc' s'.
Proof.
  intros W Le.
  assert (G : forall m u s rc, uncovered t0 (cl s) = m -> weight s = u -> NI t0 cs0 s -> rs_ok r rc s ->
    exists N v s', (forall fuel, (N <= fuel)%nat -> nc_loop fuel c clk r rc s = Ok (v, s')) /\
      final_ok c clk t0 cs0 (tick s) v s' /\ exists rc', rs_ok r rc' s').
  { induction m as [m IHm] using lt_wf_ind. induction u as [u IHu] using lt_wf_ind.
    clear s rc. intros s rc Em Eu H RS.
    destruct (iter_ok c clk r rc s t0 cs0 W Le H RS) as (N & x & E & P).
    destruct x as [(v, s')|(rc', s')].
    - exists (S N), v, s'. split; auto. intros fuel Hf. destruct fuel as [|fuel]; [lia|].
      rewrite nc_loop_iter, E by lia. reflexivity.
    - destruct P as (P1 & P2 & P3 & P4).
      assert (REC : exists N v s'', (forall fuel, (N <= fuel)%nat -> nc_loop fuel c clk r rc' s' = Ok (v, s'')) /\
        final_ok c clk t0 cs0 (tick s') v s'' /\ exists rc'', rs_ok r rc'' s'').
      { destruct P4 as [P4|(P4 & P5)].
        - apply (IHm (uncovered t0 (cl s'))) with (u := weight s'); auto. lia.
        - apply (IHu (weight s')); auto; [lia|]. rewrite P4; auto. }
      destruct REC as (N' & v & s'' & E' & F & RS').
      exists (S (Nat.max N N')), v, s''. split; [|split; auto].
      + intros fuel Hf. destruct fuel as [|fuel]; [lia|].
        rewrite nc_loop_iter, E by lia. cbn [bind]. apply E'. lia.
      + destruct F as (F1 & F2 & F3). split; auto. split; [lia|].
        destruct v; auto. destruct F3 as (k & K1 & K2). exists k. split; auto. lia. }
  intros H RS. eapply G; eauto.
Qed.
