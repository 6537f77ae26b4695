(** * The searches with clause objects do what the searches with clauses do *)

From Coq Require Import Permutation.
From Verif Require Import Spec WideSpec Outcome State ModelCounter ModelHeur ModelLearn ModelWatch ModelSearch ModelBuild ModelObj
  ObjSpec Base Frame Read Keep Fuel Runs.

(** ** The objects *)

Definition inv (os : objs) (L : list nat) (cs : list clause) : Prop :=
  owned os L cs /\ forall p, omem os p <> None -> (p < obrk os)%nat.

Lemma inv_perm os L L' cs : Permutation L L' -> inv os L cs -> inv os L' cs.
Proof.
  intros P ((F & N & A) & B). split; [|exact B]. split; [exact F|]. split.
  - eapply Permutation_NoDup; [|exact N]. apply Permutation_app_head. exact P.
  - intro p. rewrite A, !in_app_iff. split; intros [H|H]; auto; right; [eapply Permutation_in; eauto|eapply Permutation_in; [apply Permutation_sym|]; eauto].
Qed.

Lemma inv_get os L cs n : inv os L cs ->
  match nth_error cs n with
  | Some C => exists p, oget os n = Ok p /\ omem os p = Some C /\ In p (olist os)
  | None => oget os n = Undef OobClause
  end.
Proof.
  intros ((F & _ & _) & _). unfold oget. revert n. induction F as [|p C ps cs H F IH]; intros [|n]; cbn [nth_error]; auto.
  - exists p. repeat split; auto. left; auto.
  - specialize (IH n). destruct (nth_error cs n); [|exact IH]. destruct IH as (q & E & M & I). exists q. repeat split; auto. right; auto.
Qed.

Lemma inv_new os L cs C p os' : inv os L cs -> onew os C = (p, os') ->
  inv os' (p :: L) cs /\ omem os' p = Some C /\ olist os' = olist os /\ (forall q, omem os q <> None -> q <> p /\ omem os' q = omem os q).
Proof.
  intros ((F & N & A) & B) E. unfold onew in E. injection E as <- <-. unfold inv, owned. cbn [omem obrk olist].
  assert (FR : forall q, omem os q <> None -> q <> obrk os). { intros q H. apply B in H. lia. }
  assert (K : forall q, omem os q <> None -> updn (omem os) (obrk os) (Some C) q = omem os q). { intros q H. apply updn_other. auto. }
  assert (NI : ~ In (obrk os) (olist os ++ L)). { intro I. apply A in I. apply FR in I. congruence. }
  split; [split; [split; [|split]|]|split; [apply updn_same|split; [reflexivity|intros q H; split; auto]]].
  - clear -F K. induction F as [|q D ps cs H F IH]; constructor; auto. rewrite K; congruence.
  - apply (NoDup_Add (Add_app (obrk os) (olist os) L)). split; auto.
  - intro q. destruct (Nat.eq_dec q (obrk os)) as [->|NQ].
    + rewrite updn_same. split; [|congruence]. intros _. apply in_or_app. right. left. auto.
    + rewrite updn_other by auto. rewrite A, !in_app_iff. cbn [In]. split; intros [H|H]; auto. destruct H as [H|H]; auto. congruence.
  - intros q H. destruct (Nat.eq_dec q (obrk os)) as [->|NQ]; [lia|]. rewrite updn_other in H by auto. apply B in H. lia.
Qed.

Lemma inv_free os L cs p : inv os (p :: L) cs -> exists os', ofree os p = Ok os' /\ inv os' L cs /\ olist os' = olist os /\
  (forall q, q <> p -> omem os' q = omem os q).
Proof.
  intros ((F & N & A) & B). unfold ofree, oload.
  assert (I : In p (olist os ++ p :: L)) by (apply in_or_app; right; left; auto).
  apply A in I. destruct (omem os p) as [C|] eqn:E; [|congruence]. cbn [bind]. eexists. split; [reflexivity|].
  apply (NoDup_Add (Add_app p (olist os) L)) in N. destruct N as (N & NI).
  unfold inv, owned. cbn [omem obrk olist].
  split; [split; [split; [|split]|]|split; [reflexivity|intros q H; apply updn_other; auto]].
  - assert (NL : ~ In p (olist os)) by (intro; apply NI; apply in_or_app; auto). clear -F NL.
    induction F as [|q D ps cs H F IH]; constructor.
    + rewrite updn_other; auto. intros ->. apply NL. left; auto.
    + apply IH. intro; apply NL; right; auto.
  - exact N.
  - intro q. destruct (Nat.eq_dec q p) as [->|NQ].
    + rewrite updn_same. split; [congruence|]. intro; tauto.
    + rewrite updn_other by auto. rewrite A, !in_app_iff. cbn [In]. split; intros [H|H]; auto. destruct H as [H|H]; auto. congruence.
  - intros q H. apply B. intro Z. apply H. destruct (Nat.eq_dec q p) as [->|NQ]; [apply updn_same|rewrite updn_other; auto].
Qed.

Lemma inv_push os L cs p C : inv os (p :: L) cs -> omem os p = Some C -> inv (opush os p) L (cs ++ [C]).
Proof.
  intros ((F & N & A) & B) E. unfold inv, owned, opush. cbn [omem obrk olist]. split; [split; [|split]|exact B].
  - apply Forall2_app; auto.
  - rewrite <- app_assoc. exact N.
  - intro q. rewrite A, <- app_assoc. reflexivity.
Qed.

(** ** The relation

    [o] is an outcome of the other model, [oh] one of the model with objects.  Nothing is asked
    if the other model finds that a clause would be learnt twice: that it never does is part of C08. *)
Definition osim {A B} (R : A -> B -> Prop) (o : outcome A) (oh : outcome B) : Prop :=
  match o with
  | Ok a => exists b, oh = Ok b /\ R a b
  | Undef Aliased => True
  | Undef u => oh = Undef u
  | OutOfFuel => oh = OutOfFuel
  end.

Lemma osim_bind {A B A' B'} (R : A -> B -> Prop) (R' : A' -> B' -> Prop) o oh f g :
  osim R o oh -> (forall a b, o = Ok a -> R a b -> osim R' (f a) (g b)) -> osim R' (bind o f) (bind oh g).
Proof.
  intros H K. destruct o as [a|u|]; cbn [osim bind] in *.
  - destruct H as (b & -> & H). cbn [bind]. auto.
  - destruct u; auto; rewrite H; reflexivity.
  - rewrite H. reflexivity.
Qed.
Lemma osim_same {A A' B'} (R' : A' -> B' -> Prop) (o : outcome A) f g :
  (forall a, o = Ok a -> osim R' (f a) (g a)) -> osim R' (bind o f) (bind o g).
Proof. intros K. destruct o as [a|u|]; cbn [osim bind]; auto. destruct u; reflexivity. Qed.
Lemma osim_ok {A B} (R : A -> B -> Prop) a b : R a b -> osim R (Ok a) (Ok b).
Proof. intro. exists b. auto. Qed.
Lemma osim_undef {A B} (R : A -> B -> Prop) u : osim R (Undef u) (Undef u).
Proof. destruct u; reflexivity. Qed.

(** ** The analysis *)

Definition cid_old (k : reason) : bool := match k with RCls _ => true | _ => false end.

Lemma reason_sim s os L l : inv os L (cl s) ->
  osim (fun (r : clause) (x : nat * objs) => let (rp, os') := x in
          omem os' rp = Some r /\ olist os' = olist os /\
          (forall q, omem os q <> None -> omem os' q = omem os q) /\
          if cid_old (CID (tr s) (lvar l) (lval l)) then os' = os else (inv os' (rp :: L) (cl s) /\ omem os rp = None))
    (reason_clause s l) (o_reason s os l).
Proof.
  intro H. unfold reason_clause, o_reason. apply osim_same. intros _ _.
  assert (NW : forall C : clause, osim (fun (r : clause) (x : nat * objs) => let (rp, os') := x in
          omem os' rp = Some r /\ olist os' = olist os /\
          (forall q, omem os q <> None -> omem os' q = omem os q) /\ (inv os' (rp :: L) (cl s) /\ omem os rp = None)) (Ok C) (Ok (onew os C))).
  { intro C. apply osim_ok. destruct (onew os C) as (p, os') eqn:E. destruct (inv_new _ _ _ _ _ _ H E) as (I & M & O & K).
    repeat split; auto; try apply I; try (intros q Q; apply K; auto). destruct (omem os p) eqn:Q; auto. destruct (K p) as (Z & _); congruence. }
  destruct (CID (tr s) (lvar l) (lval l)) as [ | |n| ]; cbn [cid_old].
  - cbv zeta. destruct (lidx (tr s) l <? 0); [apply osim_undef|]. destruct (nth_error _ _); [apply NW|apply osim_undef].
  - apply NW.
  - unfold getcl. pose proof (inv_get os L (cl s) n H) as G. destruct (nth_error (cl s) n) as [C|].
    + destruct G as (p & -> & M & I). cbn [bind]. apply osim_ok. auto.
    + rewrite G. cbn [bind]. apply osim_undef.
  - apply osim_undef.
Qed.

(** The analysis owns the clause it works on if that is a resolvent. *)
Definition mine (temp : bool) (p : nat) (L : list nat) : list nat := if temp then p :: L else L.

Lemma analyze_sim c : forall fuel s os p ls a b temp L,
  inv os (mine temp p L) (cl s) -> omem os p = Some ls -> (temp = false -> In p (olist os)) ->
  osim (fun x y => fst (fst y) = fst x /\ snd (snd y) = snd (snd (snd x)) /\
          omem (snd (fst y)) (fst (snd y)) = Some (fst (snd x)) /\ inv (snd (fst y)) L (cl (fst x)))
    (analyze fuel c s ls a b temp) (o_analyze fuel c s os p a b temp).
Proof.
  induction fuel as [|fuel IH]; intros s os p ls a b temp L H M T; [reflexivity|]. cbn [analyze o_analyze].
  unfold oload at 1. rewrite M. cbn [bind]. apply osim_same. intros q _. destruct q.
  - destruct temp; [|exact I]. apply osim_same. intros s1 E1. apply osim_ok. cbn [fst snd]. split; [reflexivity|]. split; [reflexivity|].
    split; [exact M|]. rewrite (learn_clause_cl c s ls a b s1 E1). apply inv_push; auto.
  - apply osim_same. intros last _. eapply osim_bind; [apply (reason_sim s os (mine temp p L) last H)|].
    intros r (rp, os1) _ (M1 & O1 & K1 & D). unfold oload at 1. rewrite M1. cbn [bind].
    destruct (onew os1 (resolve ls last r)) as (np, os2) eqn:E2. apply osim_same. intros w _.
    assert (STEP : exists os3 os4, (if temp then ofree os2 p else Ok os2) = Ok os3 /\
              match CID (tr s) (lvar last) (lval last) with RCls _ => Ok os3 | _ => ofree os3 rp end = Ok os4 /\
              inv os4 (np :: L) (cl s) /\ omem os4 np = Some (resolve ls last r)).
    { assert (P1 : omem os1 p <> None) by (rewrite K1; congruence).
      destruct (CID (tr s) (lvar last) (lval last)) as [ | |n| ] eqn:EC; cbn [cid_old] in D.
      3: { subst os1. destruct (inv_new _ _ _ _ _ _ H E2) as (I2 & M2 & O2 & K2). destruct temp; cbn [mine] in *.
           - destruct (inv_free os2 (np :: L) (cl s) p) as (os3 & E3 & I3 & O3 & K3); [eapply inv_perm; [apply perm_swap|exact I2]|].
             exists os3, os3. rewrite E3. repeat split; try apply I3; auto. rewrite K3; auto. apply not_eq_sym, K2, P1.
           - exists os2, os2. repeat split; try apply I2; auto. }
      all: destruct D as (I1 & NR); destruct (inv_new _ _ _ _ _ _ I1 E2) as (I2 & M2 & O2 & K2); destruct temp; cbn [mine] in *;
        [ destruct (inv_free os2 (np :: rp :: L) (cl s) p) as (os3 & E3 & I3 & O3 & K3);
          [ eapply inv_perm; [|exact I2]; eapply Permutation_trans; [apply perm_skip, perm_swap|apply perm_swap]
          | destruct (inv_free os3 (np :: L) (cl s) rp) as (os4 & E4 & I4 & O4 & K4); [eapply inv_perm; [apply perm_swap|exact I3]|];
            exists os3, os4; rewrite E3; split; [reflexivity|]; split; [exact E4|]; split; [exact I4|];
            rewrite K4, K3; auto; apply not_eq_sym, K2; congruence ]
        | destruct (inv_free os2 (np :: L) (cl s) rp) as (os4 & E4 & I4 & O4 & K4); [eapply inv_perm; [apply perm_swap|exact I2]|];
          exists os2, os4; split; [reflexivity|]; split; [exact E4|]; split; [exact I4|];
          rewrite K4; auto; apply not_eq_sym, K2; congruence ]. }
    destruct STEP as (os3 & os4 & -> & S2 & I4 & M4). cbn [bind].
    assert (G : forall (A : Type) (k : objs -> outcome A), bind match CID (tr s) (lvar last) (lval last) with RCls _ => Ok os3 | _ => ofree os3 rp end k = k os4).
    { intros A k. rewrite S2. reflexivity. }
    rewrite G. apply IH; auto. discriminate.
Qed.

(** ** The searches *)

Definition same (L : list nat) (s : state) (x : state * objs) : Prop := fst x = s /\ inv (snd x) L (cl s).

Lemma same_of L s s' os : inv os L (cl s) -> cl s' = cl s -> same L s' (s', os).
Proof. intros H E. split; [reflexivity|]. cbn [snd]. rewrite E. exact H. Qed.

Definition same_rc (L : list nat) (x : state * Z) (y : (state * objs) * Z) : Prop := same L (fst x) (fst y) /\ snd y = snd x.

Definition conflict_of (fuel : nat) (c : cfg) := if watch c then wl_conflict fuel c else nc_conflict fuel c.
Definition loop_of (fuel : nat) (c : cfg) := if watch c then wl_loop fuel c else nc_loop fuel c.

Lemma conflict_sim fuel c r rc s os L : inv os L (cl s) ->
  osim (same_rc L) (conflict_of fuel c r rc s) (o_conflict fuel c r rc (s, os)).
Proof.
  intro H. unfold conflict_of, o_conflict.
  destruct (watch c) eqn:Hw.
  - unfold wl_conflict, getcl. pose proof (inv_get os L (cl s) (confcl s) H) as G. destruct (nth_error (cl s) (confcl s)) as [ls|]; [|rewrite G; reflexivity].
    destruct G as (p & -> & M & I). cbn [bind]. eapply osim_bind; [apply (analyze_sim c fuel s os p ls _ _ false L H M); auto|].
    intros (s1, (C, (a1, b1))) ((s2, os1), (q, b2)) _ (E1 & E1' & M1 & I1). cbn [fst snd] in *. subst s2 b2. unfold oload. rewrite M1. cbn [bind].
    apply osim_same. intros lv _. cbv zeta. destruct (_ =? rc); cbn [bind].
    + apply osim_same. intros s3 E3. apply still_wundo, still_cl in E3. apply osim_ok. split; [|reflexivity].
      apply (same_of L s1); auto. cbn [level set_restarts]. destruct (_ =? 0); exact E3.
    + apply osim_same. intros s3 E3. apply still_wundo, still_cl in E3. apply osim_ok. split; [|reflexivity]. apply (same_of L s1); auto.
  - unfold nc_conflict, getcl. pose proof (inv_get os L (cl s) (confcl s) H) as G. destruct (nth_error (cl s) (confcl s)) as [ls|]; [|rewrite G; reflexivity].
    destruct G as (p & -> & M & I). cbn [bind]. eapply osim_bind; [apply (analyze_sim c fuel s os p ls _ _ false L H M); auto|].
    intros (s1, (C, (a1, b1))) ((s2, os1), (q, b2)) _ (E1 & E1' & M1 & I1). cbn [fst snd] in *. subst s2 b2. unfold oload. rewrite M1. cbn [bind].
    apply osim_same. intros lv _. cbv zeta. destruct (_ =? rc); cbn [bind].
    + apply osim_same. intros s3 E3. apply still_undo, still_cl in E3. apply osim_ok. split; [|reflexivity].
      apply (same_of L s1); auto. cbn [level set_restarts]. destruct (_ =? 0); exact E3.
    + apply osim_same. intros s3 E3. apply still_undo, still_cl in E3. apply osim_ok. split; [|reflexivity]. apply (same_of L s1); auto.
Qed.

Lemma loop_sim c clk r L : forall fuel rc s os, inv os L (cl s) ->
  osim (fun x y => fst y = fst x /\ same L (snd x) (snd y)) (loop_of fuel c clk r rc s) (o_loop fuel c clk r rc (s, os)).
Proof.
  induction fuel as [|fuel IH]; intros rc s os H; [unfold loop_of; destruct (watch c); reflexivity|].
  pose proof (fun s os => conflict_sim (S fuel) c r rc s os L) as CS. unfold conflict_of in CS.
  unfold loop_of in *. cbn [o_loop]. destruct (watch c) eqn:Hw; cbn [wl_loop nc_loop].
  - destruct (check_time clk s) as (late, s0) eqn:CT. assert (C0 : cl s0 = cl s) by (unfold check_time in CT; injection CT as _ <-; reflexivity).
    assert (H0 : inv os L (cl s0)) by (rewrite C0; exact H).
    destruct late; [apply osim_ok; split; [reflexivity|apply (same_of L s); auto]|].
    destruct (conflict s0 && (level s0 =? 0)); [apply osim_ok; split; [reflexivity|apply (same_of L s); auto]|].
    eapply osim_bind with (R := same_rc L).
    { destruct (conflict s0); [apply CS; auto|]. apply osim_ok. split; [apply (same_of L s0); auto|reflexivity]. }
    intros (s1, rc1) ((s1', os1), rc1') _ ((E1 & I1) & E1'). cbn [fst snd] in *. subst s1' rc1'.
    apply osim_same. intros s2 E2. assert (C2 : cl s2 = cl s1).
    { destruct (ulist s1); [congruence|]. apply wup_cl in E2. exact E2. }
    assert (I2 : inv os1 L (cl s2)) by (rewrite C2; exact I1).
    destruct (conflict s2); [apply IH; auto|].
    apply osim_same. intros (s3, l) E3. apply choose_wl_cl in E3. assert (I3 : inv os1 L (cl s3)) by (rewrite E3; exact I2).
    destruct (lvar l =? -1); [apply osim_ok; split; [reflexivity|apply (same_of L s3); auto]|].
    apply osim_same. intros s4 E4. unfold wl_decide in E4. cbv zeta in E4. apply wreduce_cl in E4. cbn in E4.
    apply IH. rewrite E4. exact I3.
  - destruct (check_time clk s) as (late, s0) eqn:CT. assert (C0 : cl s0 = cl s) by (unfold check_time in CT; injection CT as _ <-; reflexivity).
    assert (H0 : inv os L (cl s0)) by (rewrite C0; exact H).
    destruct late; [apply osim_ok; split; [reflexivity|apply (same_of L s); auto]|].
    destruct (conflict s0 && (level s0 =? 0)); [apply osim_ok; split; [reflexivity|apply (same_of L s); auto]|].
    eapply osim_bind with (R := same_rc L).
    { destruct (conflict s0); [apply CS; auto|]. apply osim_ok. split; [apply (same_of L s0); auto|reflexivity]. }
    intros (s1, rc1) ((s1', os1), rc1') _ ((E1 & I1) & E1'). cbn [fst snd] in *. subst s1' rc1'.
    apply osim_same. intros s2 E2. assert (C2 : cl s2 = cl s1).
    { destruct (ulist s1); [congruence|]. apply up_cl in E2. exact E2. }
    assert (I2 : inv os1 L (cl s2)) by (rewrite C2; exact I1).
    destruct (conflict s2); [apply IH; auto|].
    apply osim_same. intros (s3, l) E3. apply choose_nc_cl in E3. assert (I3 : inv os1 L (cl s3)) by (rewrite E3; exact I2).
    destruct (lvar l =? -1); [apply osim_ok; split; [reflexivity|apply (same_of L s3); auto]|].
    apply osim_same. intros s4 E4. unfold nc_decide in E4. cbv zeta in E4. apply reduce_cl in E4. cbn in E4.
    apply IH. rewrite E4. exact I3.
Qed.

(** ** Reading *)

Lemma build_doms c : forall ds s os L, inv os L (cl s) ->
  osim (fun s' x => exists L', same L' s' x /\ length L' = (length ds + length L)%nat) (foldM (add_item c) (map IDom ds) s) (foldM (o_add_item c) (map IDom ds) (s, os)).
Proof.
  induction ds as [|d ds IH]; intros s os L H; cbn [map foldM length].
  - apply osim_ok. exists L. split; [apply (same_of L s); auto|reflexivity].
  - change (o_add_item c (s, os) (IDom d)) with (let* s1 := add_item c s (IDom d) in Ok (s1, snd (onew os []))). destruct (add_item c s (IDom d)) as [s1|u|] eqn:E1; cbn [bind]; [|apply osim_undef|reflexivity].
    destruct (onew os []) as (p, os1) eqn:EN. cbn [snd bind]. destruct (inv_new _ _ _ _ _ _ H EN) as (I1 & _).
    assert (C1 : cl s1 = cl s). { cbn [add_item] in E1. unfold add_domain in E1. destruct (d <? 0); [discriminate|]. injection E1 as <-. reflexivity. }
    rewrite <- C1 in I1. specialize (IH s1 os1 (p :: L) I1). destruct (foldM (add_item c) (map IDom ds) s1) as [s2|u|]; cbn [osim] in *; auto.
    destruct IH as (x & E & L' & S & EL). exists x. split; auto. exists L'. split; auto. rewrite EL. cbn [length]. lia.
Qed.

Lemma build_rows c : forall cs s os L, inv os L (cl s) ->
  osim (same L) (foldM (add_item c) (map ICls cs) s) (foldM (o_add_item c) (map ICls cs) (s, os)).
Proof.
  induction cs as [|C cs IH]; intros s os L H; cbn [map foldM].
  - apply osim_ok. apply (same_of L s); auto.
  - change (o_add_item c (s, os) (ICls C)) with (let* s1 := add_item c s (ICls C) in let (p, os1) := onew os C in Ok (s1, opush os1 p)). destruct (add_item c s (ICls C)) as [s1|u|] eqn:E1; cbn [bind]; [|apply osim_undef|reflexivity].
    destruct (onew os C) as (p, os1) eqn:EN. cbn [bind]. destruct (inv_new _ _ _ _ _ _ H EN) as (I1 & M1 & _).
    apply IH. cbn [add_item] in E1. rewrite (add_clause_cl c s C s1 E1). apply inv_push; auto.
Qed.

Lemma solve_osim fuel c clk r p :
  osim (fun x y => fst y = x /\ exists L, inv (snd y) L (cl (snd x)) /\ length L = length (doms p))
    (solve fuel NonChrono c clk r p) (o_solve fuel c clk r p).
Proof.
  unfold solve, o_solve, build, items_of. eapply osim_bind with (R := fun s x => exists L, same L s x /\ length L = length (doms p)).
  - rewrite !foldM_app. eapply osim_bind.
    + apply (build_doms c (doms p) init_state no_objs []). split; [split; [constructor|split; [constructor|]]|]; cbn.
      * intro q. split; [congruence|tauto].
      * congruence.
    + intros s (s', os) _ (L & (E & I) & EL). cbn [fst snd] in *. subst s'. pose proof (build_rows c (clauses p) s os L I) as B.
      destruct (foldM (add_item c) (map ICls (clauses p)) s) as [s2|u|]; cbn [osim] in *; auto.
      destruct B as (x & E & S). exists x. split; auto. exists L. split; auto. rewrite EL, Nat.add_0_r. reflexivity.
  - intros s (s', os) _ (L & (E & I) & EL). cbn [fst snd] in *. subst s'. unfold solve_state.
    assert (EL' : run_search fuel NonChrono c clk r s = loop_of fuel c clk r r s) by (cbn [run_search]; unfold loop_of, wl_search, nc_search; destruct (watch c); reflexivity).
    rewrite EL'.
    eapply osim_bind; [apply (loop_sim c clk r L fuel r s os I)|].
    intros (v, s1) (v', (s1', os1)) _ (E & (E1 & I1)). cbn [fst snd] in *. subst v' s1'. destruct v.
    + apply osim_same. intros b _. apply osim_ok. split; [reflexivity|]. exists L. auto.
    + apply osim_ok. split; [reflexivity|]. exists L. auto.
    + apply osim_ok. split; [reflexivity|]. exists L. auto.
Qed.


(** ** Runs *)

Lemma obj_run fuel c clk r p : setting NonChrono c -> input NonChrono p ->
  (let* q := o_solve fuel c clk r p in Ok (fst q)) = solve fuel NonChrono c clk r p.
Proof.
  intros S I. pose proof (solve_osim fuel c clk r p) as H. pose proof (run_total NonChrono c clk r p S I) as (_ & U).
  destruct (solve fuel NonChrono c clk r p) as [q|u|] eqn:E; cbn [osim] in H.
  - destruct H as (y & -> & E2 & _). cbn [bind]. rewrite E2. reflexivity.
  - exfalso. exact (U fuel u E).
  - rewrite H. reflexivity.
Qed.

Lemma obj_safe fuel c clk r p u : setting NonChrono c -> input NonChrono p -> o_solve fuel c clk r p <> Undef u.
Proof.
  intros S I E. pose proof (obj_run fuel c clk r p S I) as R. rewrite E in R. cbn [bind] in R.
  apply (proj2 (run_total NonChrono c clk r p S I) fuel u). auto.
Qed.

Lemma obj_total c clk r p : setting NonChrono c -> input NonChrono p ->
  exists N q, forall fuel, (N <= fuel)%nat -> exists os, o_solve fuel c clk r p = Ok (q, os).
Proof.
  intros S I. destruct (run_total NonChrono c clk r p S I) as ((N & rep & s & T) & _). exists N, (rep, s). intros fuel B.
  pose proof (obj_run fuel c clk r p S I) as R. rewrite (T fuel B) in R.
  destruct (o_solve fuel c clk r p) as [[q os]| |]; cbn [bind fst] in R; try discriminate. injection R as ->. eauto.
Qed.

Lemma obj_owned fuel c clk r p rep s os : setting NonChrono c -> input NonChrono p -> o_solve fuel c clk r p = Ok ((rep, s), os) ->
  exists L, owned os L (cl s) /\ length L = length (doms p).
Proof.
  intros S I E. pose proof (obj_run fuel c clk r p S I) as R. pose proof (solve_osim fuel c clk r p) as H. rewrite E in R, H. cbn [bind fst] in R.
  rewrite <- R in H. cbn [osim] in H. destruct H as (y & E1 & E2 & L & (O & _) & EL). injection E1 as <-. exists L. auto.
Qed.
