(** * The VSIDS scores *)

From Coq Require Import Floats.SpecFloat.
From Verif Require Import Spec WideSpec Outcome State ModelCounter ModelHeur ModelLearn ModelWatch
  ModelSearch ModelBuild Base Trail Reduce Counter Propagate Choose Scores Chrono Init Nc Wl
  Fuel Steps Reach StepSpec StepFacts StatSpec Frame Stats StatRuns ScoreSpec.

Lemma one_f64 : one = f64_one.
Proof. reflexivity. Qed.
Lemma two_f64 : two = f64_two.
Proof. reflexivity. Qed.

Lemma lit_eqb_eq a b : lit_eqb a b = true <-> a = b.
Proof. destruct (lit_eqb_spec a b); split; auto; discriminate. Qed.

Lemma vs_bump s x l : vs (bump s x) l = if lit_eqb l x then plus_one (vs s l) else vs s l.
Proof.
  unfold bump, updl. cbn. destruct (lit_eqb l x) eqn:E; auto. apply lit_eqb_eq in E. subst. reflexivity.
Qed.

Lemma lit_pos_eqb l v j : leq l = true -> lit_eqb l (mkLit v j true) = (v =? lvar l) && (j =? lval l).
Proof.
  intro P. destruct l as [a b q]. cbn in P. subst q. unfold lit_eqb. cbn.
  rewrite (Z.eqb_sym a v), (Z.eqb_sym b j). destruct (v =? a), (j =? b); reflexivity.
Qed.

(** A negative literal counts for the other values. *)
Lemma vs_others s v d l : leq l = true -> (lvar l = v -> 0 <= lval l < DOM (tr s) v) ->
  vs (bump_others s v d) l = if (v =? lvar l) && negb (d =? lval l) then plus_one (vs s l) else vs s l.
Proof.
  intros P R. unfold bump_others.
  assert (G : forall js u, NoDup js ->
    vs (fold_left (fun s j => if j =? d then s else bump s (mkLit v j true)) js u) l =
    if (v =? lvar l) && negb (d =? lval l) && existsb (Z.eqb (lval l)) js then plus_one (vs u l) else vs u l).
  { induction js as [|j js IH]; intros u N; cbn [fold_left existsb]; [rewrite andb_false_r; reflexivity|].
    inversion N as [|? ? N1 N2]; subst. rewrite IH by auto.
    assert (X : vs (if j =? d then u else bump u (mkLit v j true)) l =
      if (v =? lvar l) && negb (d =? lval l) && (lval l =? j) then plus_one (vs u l) else vs u l).
    { destruct (j =? d) eqn:E.
      - apply Z.eqb_eq in E. subst j. rewrite (Z.eqb_sym (lval l) d). destruct (v =? lvar l), (d =? lval l); reflexivity.
      - rewrite vs_bump, lit_pos_eqb by auto. rewrite (Z.eqb_sym (lval l) j).
        destruct (v =? lvar l); cbn [andb]; auto. destruct (j =? lval l) eqn:E2; [|rewrite andb_false_r; auto].
        apply Z.eqb_eq in E2. subst j. rewrite Z.eqb_sym in E. rewrite E. reflexivity. }
    rewrite X. destruct ((v =? lvar l) && negb (d =? lval l)); cbn [andb]; auto.
    destruct (lval l =? j) eqn:E; cbn [orb]; auto.
    apply Z.eqb_eq in E. subst j.
    assert (Y : existsb (Z.eqb (lval l)) js = false).
    { destruct (existsb (Z.eqb (lval l)) js) eqn:Y; auto. apply existsb_exists in Y. destruct Y as (z & Y1 & Y2).
      apply Z.eqb_eq in Y2. subst z. contradiction. }
    rewrite Y. reflexivity. }
  rewrite G by apply nodup_zrange.
  destruct (v =? lvar l) eqn:E; cbn [andb]; auto. apply Z.eqb_eq in E. symmetry in E. specialize (R E).
  assert (Y : existsb (Z.eqb (lval l)) (zrange 0 (DOM (tr s) v)) = true).
  { apply existsb_exists. exists (lval l). split; [apply in_zrange; lia|apply Z.eqb_refl]. }
  rewrite Y, andb_true_r. reflexivity.
Qed.

(** The literals whose scores are meant. *)
Definition scoring (c : cfg) (pos : bool) (l : lit) : Prop :=
  heur c = (if pos then VSIDS_pos else VSIDS) /\ (pos = true -> leq l = true).

Lemma iter_succ_r {A} n (f : A -> A) x : Nat.iter n f (f x) = Nat.iter (S n) f x.
Proof. induction n; cbn; auto. f_equal. exact IHn. Qed.

Lemma credit_cons pos l x C a : credit pos l (x :: C) a =
  credit pos l C (if counts_for pos l x then plus_one a else a).
Proof.
  unfold credit. cbn [filter]. destruct (counts_for pos l x); auto. cbn [length]. symmetry. apply iter_succ_r.
Qed.
Lemma credit_app pos l C1 C2 a : credit pos l (C1 ++ C2) a = credit pos l C2 (credit pos l C1 a).
Proof. revert a. induction C1 as [|x C1 IH]; intro a; auto. cbn [app]. rewrite !credit_cons. apply IH. Qed.

Definition one_more (c : cfg) (s : state) (x : lit) : state :=
  match heur c with
  | VSIDS => bump s x
  | VSIDS_pos => if leq x then bump s x else bump_others s (lvar x) (lval x)
  | _ => s
  end.

Lemma vs_one_more c pos s x l : scoring c pos l -> range (tr s) (lvar l) (lval l) ->
  vs (one_more c s x) l = if counts_for pos l x then plus_one (vs s l) else vs s l.
Proof.
  intros (H & P) R. unfold one_more. rewrite H. destruct pos; cbn [counts_for].
  - specialize (P eq_refl). destruct (leq x) eqn:Q.
    + rewrite vs_bump. replace x with (mkLit (lvar x) (lval x) true) at 1 by (destruct x; cbn in *; congruence).
      rewrite lit_pos_eqb by auto. reflexivity.
    + rewrite vs_others by (auto; intros <-; apply R). reflexivity.
  - apply vs_bump.
Qed.

Lemma vs_learn_atoms c pos n l : forall C s s', scoring c pos l -> range (tr s) (lvar l) (lval l) ->
  foldM (learn_atom c n) C s = Ok s' -> vs s' l = credit pos l C (vs s l) /\ tr s' = tr s.
Proof.
  induction C as [|x C IH]; intros s s' P R E.
  - injection E as <-. auto.
  - cbn [foldM] in E. apply bind_ok in E. destruct E as (s1 & E1 & E).
    unfold learn_atom in E1. apply do_ok in E1. injection E1 as E1.
    set (s0 := if watch c then s else set_rec s (updl (rec s) x (rec s x ++ [n]))) in *.
    assert (V0 : vs s0 = vs s /\ tr s0 = tr s) by (unfold s0; destruct (watch c); auto).
    destruct V0 as (V0 & T0). change (one_more c s0 x = s1) in E1.
    assert (T1 : tr s1 = tr s).
    { subst s1. rewrite <- T0. assert (K : kept (one_more c s0 x) = kept s0).
      { unfold one_more. destruct (heur c), (leq x); try reflexivity; apply kept_others. }
      unfold kept in K. congruence. }
    destruct (IH s1 s') as (A & B); auto; [rewrite T1; auto|]. split; [|congruence].
    rewrite A, credit_cons. f_equal. subst s1. rewrite (vs_one_more c pos) by (auto; rewrite T0; auto).
    rewrite V0. reflexivity.
Qed.

Lemma cl_others s v d : cl (bump_others s v d) = cl s.
Proof. destruct (proj1 (bump_others_ok s v d)) as (f & ->). reflexivity. Qed.
Lemma tr_others s v d : tr (bump_others s v d) = tr s.
Proof. destruct (proj1 (bump_others_ok s v d)) as (f & ->). reflexivity. Qed.
Lemma cl_decay c s : cl (decay c s) = cl s.
Proof. destruct (proj1 (decay_ok c s)) as (f & ->). reflexivity. Qed.

(** Halving. *)
Lemma vs_halve s x l : vs (halve s x) l = if lit_eqb l x then half (vs s l) else vs s l.
Proof.
  unfold halve, updl. cbn. destruct (lit_eqb l x) eqn:E; auto. apply lit_eqb_eq in E. subst. reflexivity.
Qed.

Lemma vs_decay c pos s l : scoring c pos l -> 0 <= NV (tr s) -> DOM (tr s) 0 = 0 -> range (tr s) (lvar l) (lval l) ->
  vs (decay c s) l = half (vs s l).
Proof.
  intros (H & P) N D R. unfold decay. rewrite H.
  assert (I : In (lvar l, lval l) (atoms_from (tr s) 0)) by (apply in_atoms0; auto).
  pose proof (nodup_atoms (tr s) 0) as ND. revert I ND. generalize (atoms_from (tr s) 0) as xs.
  assert (G : forall (f : state -> Z * Z -> state),
    (forall u v d, vs (f u (v, d)) l = if (v =? lvar l) && (d =? lval l) then half (vs u l) else vs u l) ->
    forall xs u, NoDup xs -> vs (fold_left f xs u) l = if existsb (fun a => (fst a =? lvar l) && (snd a =? lval l)) xs
                                              then half (vs u l) else vs u l).
  { intros f Hf. induction xs as [|(v, d) xs IH]; intros u ND; auto. inversion ND as [|? ? N1 N2]; subst.
    cbn [fold_left existsb fst snd]. rewrite IH, Hf by auto.
    destruct ((v =? lvar l) && (d =? lval l)) eqn:E; cbn [orb]; auto.
    apply andb_prop in E. destruct E as (E1 & E2). apply Z.eqb_eq in E1, E2. subst v d.
    destruct (existsb _ xs) eqn:Y; auto. apply existsb_exists in Y. destruct Y as ((v, d) & Y1 & Y2).
    cbn in Y2. apply andb_prop in Y2. destruct Y2 as (E1 & E2). apply Z.eqb_eq in E1, E2. subst. contradiction. }
  intros xs I ND.
  assert (Y : existsb (fun a => (fst a =? lvar l) && (snd a =? lval l)) xs = true).
  { apply existsb_exists. exists (lvar l, lval l). split; auto. cbn. rewrite !Z.eqb_refl. reflexivity. }
  destruct pos.
  - rewrite (G (fun s a => halve s (mkLit (fst a) (snd a) true))); auto; [rewrite Y; reflexivity|].
    intros u v d. rewrite vs_halve. cbn [fst snd]. rewrite lit_pos_eqb by auto. reflexivity.
  - rewrite (G (fun s a => halve (halve s (mkLit (fst a) (snd a) true)) (mkLit (fst a) (snd a) false))); auto;
      [rewrite Y; reflexivity|].
    intros u v d. rewrite !vs_halve. cbn [fst snd]. destruct l as [a b q]. unfold lit_eqb. cbn [lvar lval leq].
    rewrite (Z.eqb_sym a v), (Z.eqb_sym b d). destruct (v =? a), (d =? b), q; reflexivity.
Qed.

(** Learning a clause. *)
Lemma vs_learn c pos s ls a b s' l : scoring c pos l -> 0 <= NV (tr s) -> DOM (tr s) 0 = 0 ->
  range (tr s) (lvar l) (lval l) -> learn_clause c s ls a b = Ok s' ->
  cl s' = cl s ++ [ls] /\ vs s' l = half (credit pos l ls (vs s l)).
Proof.
  intros P N D R. unfold learn_clause. cbv zeta. intro E. apply bind_ok in E. destruct E as (s1 & E1 & E).
  apply bind_ok in E. destruct E as (s2 & E2 & E). destruct (lenient c); [|discriminate]. injection E as <-.
  assert (A : tr s1 = tr s /\ vs s1 = vs s /\ cl s1 = cl s ++ [ls]).
  { destruct (watch c); [|injection E1 as <-; auto]. apply bind_ok in E1. destruct E1 as (s3 & E3 & E1). apply do_ok in E3.
    injection E3 as <-. destruct (Nat.ltb 1 (length ls)); [|injection E1 as <-; auto]. apply do_ok in E1. injection E1 as <-; auto. }
  destruct A as (A1 & A2 & A3).
  destruct (vs_learn_atoms c pos (length (cl s)) l ls s1 s2 P) as (B1 & B2); auto; [rewrite A1; auto|].
  split.
  - assert (C2 : cl s2 = cl s1).
    { apply (foldM_inv_ok (learn_atom c (length (cl s))) (fun x => cl x = cl s1) ls s1 s2); auto.
      intros x u w _ Q E. apply do_ok in E. injection E as <-. rewrite <- Q.
      destruct (watch c), (heur c), (leq x); try reflexivity; rewrite cl_others; reflexivity. }
    rewrite <- A3, <- C2. apply cl_decay.
  - rewrite (vs_decay c pos); auto; [rewrite B1, A2; reflexivity|rewrite B2, A1; auto..].
Qed.

Lemma vs_analyze c pos l : scoring c pos l -> forall fuel s ls a b t s' x, 0 <= NV (tr s) -> DOM (tr s) 0 = 0 ->
  range (tr s) (lvar l) (lval l) -> analyze fuel c s ls a b t = Ok (s', x) ->
  cl s' = cl s ++ [fst x] /\ vs s' l = half (credit pos l (fst x) (vs s l)).
Proof.
  intro P. induction fuel as [|fuel IH]; intros s ls a b t s' x N D R E; [discriminate|]. cbn [analyze] in E.
  apply bind_ok in E. destruct E as (q & _ & E). destruct q.
  - destruct t; [|discriminate]. apply bind_ok in E. destruct E as (s1 & E1 & E). injection E as <- <-.
    apply (vs_learn c pos s ls a b s1 l); auto.
  - apply bind_ok in E. destruct E as (u & _ & E). apply bind_ok in E. destruct E as (q & _ & E).
    cbv zeta in E. apply bind_ok in E. destruct E as (w & _ & E). eapply IH; eauto.
Qed.

Lemma vs_nc_conflict c pos l fuel r rc s s' rc' : scoring c pos l -> 0 <= NV (tr s) -> DOM (tr s) 0 = 0 ->
  range (tr s) (lvar l) (lval l) -> nc_conflict fuel c r rc s = Ok (s', rc') ->
  exists C, cl s' = cl s ++ [C] /\ vs s' l = half (credit pos l C (vs s l)).
Proof.
  intros P N D R. unfold nc_conflict. intro E. apply bind_ok in E. destruct E as (ls & _ & E).
  apply bind_ok in E. destruct E as ((s1, x) & E1 & E). apply (vs_analyze c pos l P) in E1; auto.
  apply bind_ok in E. destruct E as (lv & _ & E). cbv zeta in E. cbn in E. exists (fst x).
  destruct (backtracks s1 + 1 =? rc).
  - apply bind_ok in E. destruct E as (s2 & E2 & E). apply still_undo in E2. unfold still, outer in E2. cbn in E2.
    assert (cl s2 = cl s1) by congruence. assert (vs s2 = vs s1) by congruence.
    injection E as <- _. destruct (level s2 =? 0); cbn; rewrite H, H0; exact E1.
  - apply bind_ok in E. destruct E as (s2 & E2 & E). apply still_undo in E2. unfold still, outer in E2. cbn in E2.
    assert (cl s2 = cl s1) by congruence. assert (vs s2 = vs s1) by congruence.
    injection E as <- _. cbn; rewrite H, H0; exact E1.
Qed.

Lemma vs_wl_conflict c pos l fuel r rc s s' rc' : scoring c pos l -> 0 <= NV (tr s) -> DOM (tr s) 0 = 0 ->
  range (tr s) (lvar l) (lval l) -> wl_conflict fuel c r rc s = Ok (s', rc') ->
  exists C, cl s' = cl s ++ [C] /\ vs s' l = half (credit pos l C (vs s l)).
Proof.
  intros P N D R. unfold wl_conflict. intro E. apply bind_ok in E. destruct E as (ls & _ & E).
  apply bind_ok in E. destruct E as ((s1, x) & E1 & E). apply (vs_analyze c pos l P) in E1; auto.
  apply bind_ok in E. destruct E as (lv & _ & E). cbv zeta in E. cbn in E. exists (fst x).
  destruct (backtracks s1 + 1 =? rc).
  - apply bind_ok in E. destruct E as (s2 & E2 & E). apply still_wundo in E2. unfold still, outer in E2. cbn in E2.
    assert (cl s2 = cl s1) by congruence. assert (vs s2 = vs s1) by congruence.
    injection E as <- _. destruct (level s2 =? 0); cbn; rewrite H, H0; exact E1.
  - apply bind_ok in E. destruct E as (s2 & E2 & E). apply still_wundo in E2. unfold still, outer in E2. cbn in E2.
    assert (cl s2 = cl s1) by congruence. assert (vs s2 = vs s1) by congruence.
    injection E as <- _. cbn; rewrite H, H0; exact E1.
Qed.

(** ** The input *)

Lemma vs_add_lits c pos n l : forall C s s', scoring c pos l -> range (tr s) (lvar l) (lval l) ->
  foldM (add_lit c n) C s = Ok s' -> vs s' l = credit pos l C (vs s l) /\ tr s' = tr s.
Proof.
  induction C as [|x C IH]; intros s s' P R E.
  - injection E as <-. auto.
  - cbn [foldM] in E. apply bind_ok in E. destruct E as (s1 & E1 & E).
    assert (A : vs s1 = vs (one_more c s x) /\ tr s1 = tr s).
    { unfold add_lit in E1. apply bind_ok in E1. destruct E1 as (s2 & E2 & E1).
      assert (B : vs s2 = vs (one_more c s x) /\ tr s2 = tr s).
      { unfold one_more. destruct P as (P & _). rewrite P in *. destruct pos.
        - destruct (leq x); [apply do_ok in E2; injection E2 as <-; auto|].
          destruct (_ && _); [|discriminate]. injection E2 as <-. split; auto. apply tr_others.
        - apply do_ok in E2. injection E2 as <-. auto. }
      destruct (watch c); [injection E1 as <-; auto|]. apply do_ok in E1. injection E1 as <-. exact B. }
    destruct A as (A1 & A2). destruct (IH s1 s') as (B1 & B2); auto; [rewrite A2; auto|].
    split; [|congruence]. rewrite B1, credit_cons, A1. f_equal. apply vs_one_more; auto.
Qed.

Lemma vs_add_clause c pos s C s' l : scoring c pos l -> range (tr s) (lvar l) (lval l) ->
  add_clause c s C = Ok s' -> vs s' l = credit pos l C (vs s l) /\ tr s' = tr s.
Proof.
  intros P R E. unfold add_clause in E. cbv zeta in E. apply bind_ok in E. destruct E as (s1 & E1 & E).
  apply (vs_add_lits c pos _ l C s s1 P R) in E1. destruct E1 as (A & B). rewrite <- A, <- B.
  set (s2 := if Nat.eqb (length C) 1 then _ else _) in E.
  assert (X : vs s2 = vs s1 /\ tr s2 = tr s1) by (unfold s2; destruct (Nat.eqb (length C) 1); auto).
  destruct X as (X1 & X2). destruct (watch c); [|injection E as <-; rewrite X1; auto].
  destruct C as [|a [|b C]]; [discriminate| |]; apply bind_ok in E; destruct E as (s3 & E3 & E); apply do_ok in E3;
    injection E3 as <-.
  - injection E as <-. exact (conj (f_equal (fun f => f l) X1) X2).
  - apply do_ok in E. injection E as <-. exact (conj (f_equal (fun f => f l) X1) X2).
Qed.

Lemma vs_add_clauses c pos l : forall cs s s', scoring c pos l -> range (tr s) (lvar l) (lval l) ->
  foldM (add_item c) (map ICls cs) s = Ok s' -> vs s' l = credit pos l (concat cs) (vs s l).
Proof.
  induction cs as [|C cs IH]; intros s s' P R E; [injection E as <-; auto|]. cbn [map foldM] in E.
  apply bind_ok in E. destruct E as (s1 & E1 & E). cbn [add_item] in E1.
  apply (vs_add_clause c pos s C s1 l P R) in E1. destruct E1 as (A & B).
  rewrite (IH s1 s') by (auto; rewrite B; auto). rewrite A. cbn [concat]. rewrite credit_app. reflexivity.
Qed.

Lemma vs_build c pos p l s : wf p -> scoring c pos l -> declared p (lvar l) (lval l) -> build c (items_of p) = Ok s ->
  vs s l = score pos (clauses p) [] l.
Proof.
  intros (W & _) P R E. unfold build, items_of in E. rewrite foldM_app in E.
  destruct (build_doms c (doms p)) as (t & E1 & N & D & _). { intros d Hd. specialize (W d Hd). lia. }
  apply bind_ok in E. destruct E as (s1 & E2 & E). assert (s1 = set_tr init_state t) by congruence. subst s1.
  rewrite (vs_add_clauses c pos l (clauses p) (set_tr init_state t) s P); auto.
  destruct R as (R1 & R2). split; [cbn; rewrite N; exact R1|cbn; rewrite D; exact R2].
Qed.

(** ** Runs *)

Definition scored (c : cfg) (p : problem) (s : state) : Prop :=
  exists learned, cl s = clauses p ++ learned /\
    forall pos l, scoring c pos l -> declared p (lvar l) (lval l) -> vs s l = score pos (clauses p) learned l.

Lemma scored_noted c p s s' : noted s s' -> scored c p s -> scored c p s'.
Proof. intros N (ls & A & B). pose proof (no_out _ _ N) as O. exists ls.
  assert (cl s' = cl s) by congruence. assert (vs s' = vs s) by congruence. rewrite H, H0. auto.
Qed.

Lemma scored_conflict c p s s' : scored c p s ->
  (forall pos l, scoring c pos l -> declared p (lvar l) (lval l) ->
     exists C, cl s' = cl s ++ [C] /\ vs s' l = half (credit pos l C (vs s l))) ->
  (exists C, cl s' = cl s ++ [C]) -> scored c p s'.
Proof.
  intros (ls & A & B) H (C & HC). exists (ls ++ [C]). split; [rewrite HC, A, app_assoc; reflexivity|].
  intros pos l P D. destruct (H pos l P D) as (C' & H1 & H2).
  assert (C' = C) by (rewrite HC in H1; apply app_inv_head in H1; congruence). subst C'.
  rewrite H2, (B pos l P D). unfold score. rewrite fold_left_app. reflexivity.
Qed.

Lemma nc_reached_scored c clk r p rc s :
  wf p -> no_repeats p -> watch c = false -> lenient c = true -> nc_reached c clk r p rc s -> scored c p s.
Proof.
  intros W ND Hw Le H. induction H as [s E|fuel rc s rc' s' H IH E].
  - exists []. rewrite app_nil_r. split.
    + destruct (build_ok c p W) as (t & s0 & EB & ST & B). assert (s = s0) by congruence. subst s0. apply (bu_cl _ _ _ _ B).
    + intros pos l P D. apply (vs_build c); auto.
  - destruct (nc_step_full c clk r p rc s fuel rc' s') as (s1 & CT & X); auto.
    assert (S1 : s1 = set_tick s (S (tick s))) by (unfold check_time in CT; congruence).
    assert (IH1 : scored c p s1) by (subst s1; exact IH).
    destruct (conflict s); [|eapply scored_noted; eauto].
    destruct X as (rc1 & s2 & CA & N). apply (scored_noted c p s2); auto.
    destruct (nc_reached_ok c clk r p rc s W ND Hw Le H) as (t0 & ST & I & _).
    assert (I1 : NI t0 (clauses p) s1) by (subst s1; apply NI_tick; auto).
    destruct (nc_conflict_at_ok c clk r p rc s1 rc1 s2 W ND Hw Le CA) as (t1 & C & lv & X).
    destruct CA as (u & f & CA1 & CA2 & CA3 & CA4 & CA5).
    destruct ST as (N0 & D0 & _).
    assert (NV1 : NV (tr s1) = nvars p) by (rewrite (ni_nv _ _ _ I1); auto).
    assert (DM1 : forall v, DOM (tr s1) v = domsize p v) by (intro; rewrite (ni_dom _ _ _ I1); auto).
    apply (scored_conflict c p s1); auto; [|exists C; apply X].
    intros pos l P D. apply (vs_nc_conflict c pos l f r rc s1 s2 rc1); auto.
    + rewrite NV1. unfold nvars. lia.
    + rewrite DM1. reflexivity.
    + apply (declared_range p); auto.
Qed.

Lemma wl_reached_scored c clk r p rc s :
  wf p -> no_repeats p -> watch c = true -> lenient c = true -> heur c <> BK -> wl_reached c clk r p rc s -> scored c p s.
Proof.
  intros W ND Hw Le NB H. induction H as [s E|fuel rc s rc' s' H IH E].
  - exists []. rewrite app_nil_r. split.
    + destruct (build_ok c p W) as (t & s0 & EB & ST & B). assert (s = s0) by congruence. subst s0. apply (bu_cl _ _ _ _ B).
    + intros pos l P D. apply (vs_build c); auto.
  - destruct (wl_step_full c clk r p rc s fuel rc' s') as (s1 & CT & X); auto.
    assert (S1 : s1 = set_tick s (S (tick s))) by (unfold check_time in CT; congruence).
    assert (IH1 : scored c p s1) by (subst s1; exact IH).
    destruct (conflict s); [|eapply scored_noted; eauto].
    destruct X as (rc1 & s2 & CA & N). apply (scored_noted c p s2); auto.
    destruct (wl_reached_ok c clk r p rc s W ND Hw Le NB H) as (t0 & ST & I & _).
    assert (I1 : WI t0 (clauses p) s1) by (subst s1; apply WI_tick; auto).
    destruct (wl_conflict_at_ok c clk r p rc s1 rc1 s2 W ND Hw Le NB CA) as (t1 & C & lv & X).
    destruct CA as (u & f & CA1 & CA2 & CA3 & CA4 & CA5).
    destruct ST as (N0 & D0 & _).
    assert (NV1 : NV (tr s1) = nvars p) by (rewrite (wi_nv _ _ _ I1); auto).
    assert (DM1 : forall v, DOM (tr s1) v = domsize p v) by (intro; rewrite (wi_dom _ _ _ I1); auto).
    apply (scored_conflict c p s1); auto; [|exists C; apply X].
    intros pos l P D. apply (vs_wl_conflict c pos l f r rc s1 s2 rc1); auto.
    + rewrite NV1. unfold nvars. lia.
    + rewrite DM1. reflexivity.
    + apply (declared_range p); auto.
Qed.

Lemma nc_decision_scored c clk r p s l :
  wf p -> no_repeats p -> watch c = false -> lenient c = true -> nc_decision_at c clk r p s l -> scored c p s.
Proof.
  intros W ND Hw Le (s0 & s1 & fuel & rc & rc' & s2 & H & CT & CL & E & Cf & Ch).
  destruct (nc_reached_ok c clk r p rc s0 W ND Hw Le H) as (t0 & ST & I & RS & CN).
  assert (S1 : s1 = set_tick s0 (S (tick s0))) by (unfold check_time in CT; congruence).
  assert (K : scored c p s1) by (subst s1; exact (nc_reached_scored c clk r p rc s0 W ND Hw Le H)).
  assert (I1 : NI t0 (clauses p) s1) by (subst s1; apply NI_tick; auto).
  assert (RS1 : rs_ok r rc s1) by (subst s1; auto).
  assert (PL : conflict s1 = true -> 1 <= level s1) by (intro; eapply pos_level; eauto).
  destruct (nc_forward fuel c r rc s1 t0 (clauses p) rc' s Hw Le I1 RS1 PL E) as (sm & N & _ & M).
  apply (scored_noted c p sm); auto. destruct (conflict s1) eqn:C1; [|subst sm; auto].
  destruct M as ((rcm & M) & _).
  assert (CA : nc_conflict_at c clk r p rc s1 rcm sm).
  { exists s0, fuel. split; auto. split; auto. split; auto. split; auto. specialize (PL eq_refl). lia. }
  destruct (nc_conflict_at_ok c clk r p rc s1 rcm sm W ND Hw Le CA) as (t1 & C & lv & X).
  destruct ST as (N0 & D0 & _).
  assert (NV1 : NV (tr s1) = nvars p) by (rewrite (ni_nv _ _ _ I1); auto).
  assert (DM1 : forall v, DOM (tr s1) v = domsize p v) by (intro; rewrite (ni_dom _ _ _ I1); auto).
  apply (scored_conflict c p s1); auto; [|exists C; apply X].
  intros pos x P D. apply (vs_nc_conflict c pos x fuel r rc s1 sm rcm); auto.
  - rewrite NV1. unfold nvars. lia.
  - rewrite DM1. reflexivity.
  - apply (declared_range p); auto.
Qed.

Lemma wl_decision_scored c clk r p s l :
  wf p -> no_repeats p -> watch c = true -> lenient c = true -> heur c <> BK -> wl_decision_at c clk r p s l -> scored c p s.
Proof.
  intros W ND Hw Le NB (s0 & s1 & fuel & rc & rc' & s2 & H & CT & CL & E & Cf & Ch).
  destruct (wl_reached_ok c clk r p rc s0 W ND Hw Le NB H) as (t0 & ST & I & RS).
  assert (S1 : s1 = set_tick s0 (S (tick s0))) by (unfold check_time in CT; congruence).
  assert (K : scored c p s1) by (subst s1; exact (wl_reached_scored c clk r p rc s0 W ND Hw Le NB H)).
  assert (I1 : WI t0 (clauses p) s1) by (subst s1; apply WI_tick; auto).
  assert (RS1 : rs_ok r rc s1) by (subst s1; auto).
  assert (PL : conflict s1 = true -> 1 <= level s1) by (intro; eapply wpos_level; eauto).
  destruct (wl_forward fuel c r rc s1 t0 (clauses p) rc' s Hw Le NB I1 RS1 PL E) as (sm & N & _ & M).
  apply (scored_noted c p sm); auto. destruct (conflict s1) eqn:C1; [|subst sm; auto].
  destruct M as ((rcm & M) & _).
  assert (CA : wl_conflict_at c clk r p rc s1 rcm sm).
  { exists s0, fuel. split; auto. split; auto. split; auto. split; auto. specialize (PL eq_refl). lia. }
  destruct (wl_conflict_at_ok c clk r p rc s1 rcm sm W ND Hw Le NB CA) as (t1 & C & lv & X).
  destruct ST as (N0 & D0 & _).
  assert (NV1 : NV (tr s1) = nvars p) by (rewrite (wi_nv _ _ _ I1); auto).
  assert (DM1 : forall v, DOM (tr s1) v = domsize p v) by (intro; rewrite (wi_dom _ _ _ I1); auto).
  apply (scored_conflict c p s1); auto; [|exists C; apply X].
  intros pos x P D. apply (vs_wl_conflict c pos x fuel r rc s1 sm rcm); auto.
  - rewrite NV1. unfold nvars. lia.
  - rewrite DM1. reflexivity.
  - apply (declared_range p); auto.
Qed.

Lemma scored_are c p s : scored c p s -> scores_are c p s.
Proof.
  intros (ls & A & B). exists ls. split; auto. split; intro H.
  - intros l D. apply B; auto. split; auto. discriminate.
  - intros v d D. apply B; auto. split; auto.
Qed.
