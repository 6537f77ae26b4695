(** * The search with linked watch lists does what the search with lists does *)

From Verif Require Import Spec Outcome State ModelCounter ModelHeur ModelLearn ModelWatch ModelSearch ModelBuild ModelHeap
  HeapSpec Base Heap.

(** ** The relation

    [o] is an outcome of the list model, [oh] one of the linked model.  Nothing is asked if the
    list model finds a list to be wrong: that it never does is C23. *)
Definition sim {A B} (R : A -> B -> Prop) (o : outcome A) (oh : outcome B) : Prop :=
  match o with
  | Ok a => exists b, oh = Ok b /\ R a b
  | Undef BadList => True
  | Undef u => oh = Undef u
  | OutOfFuel => oh = OutOfFuel
  end.

Lemma sim_bind {A B A' B'} (R : A -> B -> Prop) (R' : A' -> B' -> Prop) o oh f g :
  sim R o oh -> (forall a b, o = Ok a -> R a b -> sim R' (f a) (g b)) -> sim R' (bind o f) (bind oh g).
Proof.
  intros H K. destruct o as [a|u|]; cbn [sim bind] in *.
  - destruct H as (b & -> & H). cbn [bind]. auto.
  - destruct u; auto; rewrite H; reflexivity.
  - rewrite H. reflexivity.
Qed.
Lemma sim_same {A A' B'} (R' : A' -> B' -> Prop) (o oh : outcome A) f g :
  oh = o -> (forall a, o = Ok a -> sim R' (f a) (g a)) -> sim R' (bind o f) (bind oh g).
Proof.
  intros -> K. destruct o as [a|u|]; cbn [sim bind]; auto. destruct u; reflexivity.
Qed.
Lemma sim_ok {A B} (R : A -> B -> Prop) a b : R a b -> sim R (Ok a) (Ok b).
Proof. intro. exists b. auto. Qed.
Lemma sim_weak {A B} (R R' : A -> B -> Prop) o oh : (forall a b, R a b -> R' a b) -> sim R o oh -> sim R' o oh.
Proof. intros H K. destruct o as [a|u|]; cbn [sim] in *; auto. destruct K as (b & E & K). eauto. Qed.
Lemma sim_foldM {A B X} (R : A -> B -> Prop) (f : A -> X -> outcome A) (g : B -> X -> outcome B) :
  (forall a b x, R a b -> sim R (f a x) (g b x)) -> forall xs a b, R a b -> sim R (foldM f xs a) (foldM g xs b).
Proof.
  intros H xs. induction xs as [|x xs IH]; intros a b K; cbn [foldM]; [apply sim_ok; auto|].
  eapply sim_bind; [apply H; auto|]. auto.
Qed.

(** The state without its lists. *)
Definition bare (s : state) : state := set_wls s (fun _ => []).

(** What is needed of the lists. *)
Definition lists_fine (s : state) : Prop :=
  (forall l, NoDup (wls s l)) /\
  (forall l n, In n (wls s l) -> (n < length (cl s))%nat /\ (l = w0 s n \/ l = w1 s n)) /\
  (forall ls, In ls (cl s) -> NoDup ls).

Definition rel (s : state) (x : hst) : Prop := fst x = bare s /\ holds_lists (snd x) (wls s) /\ lists_fine s.

Lemma rel_of s s' h : holds_lists h (wls s) -> lists_fine s -> wls s' = wls s -> cl s' = cl s -> w0 s' = w0 s -> w1 s' = w1 s -> rel s' (bare s', h).
Proof. intros H F E1 E2 E3 E4. unfold rel, lists_fine. cbn [fst snd]. rewrite E1, E2, E3, E4. auto. Qed.

Lemma fine_of s s' : lists_fine s -> wls s' = wls s -> cl s' = cl s -> w0 s' = w0 s -> w1 s' = w1 s -> lists_fine s'.
Proof. unfold lists_fine. intros H -> -> -> ->. auto. Qed.

(** ** The walk along a watch list *)

Lemma find_repl_other t w : forall ls l, find_repl t w ls = Ok (Some l) -> l <> w.
Proof.
  induction ls as [|k ls IH]; intros l H; cbn [find_repl] in H; [discriminate|].
  destruct (sat t k) as [r| |]; cbn [bind] in H; try discriminate. destruct r.
  - destruct (lit_eqb_spec k w) as [->|N]; [eauto|]. injection H as <-. auto.
  - destruct (lit_eqb_spec k w) as [->|N]; [eauto|]. injection H as <-. auto.
  - eauto.
Qed.

Lemma remove_one_mid n : forall ns1 ns2, ~ In n ns1 -> remove_one n (ns1 ++ n :: ns2) = Some (ns1 ++ ns2).
Proof.
  induction ns1 as [|m ns1 IH]; intros ns2 H; cbn [remove_one app].
  - rewrite Nat.eqb_refl. reflexivity.
  - destruct (Nat.eqb_spec m n) as [->|N]; [destruct H; left; auto|]. rewrite IH by (intro; apply H; right; auto). reflexivity.
Qed.

(** Between two steps: the list is in two parts, the second is still to be visited. *)
Definition halfway (key : lit) (ps ns : list nat) (s : state) (x : hst) : Prop :=
  exists h A ps1 ns1, x = (bare s, h) /\ stored h A (wls s) /\ lists_fine s /\
    A key = ps1 ++ ps /\ wls s key = ns1 ++ ns /\ length ps1 = length ns1.

Lemma halfway_next key p ps n ns s h A ps1 ns1 s' :
  stored h A (wls s) -> lists_fine s' -> A key = ps1 ++ p :: ps -> wls s key = ns1 ++ n :: ns -> length ps1 = length ns1 ->
  wls s' = wls s -> halfway key ps ns s' (bare s', h).
Proof.
  intros S F E1 E2 L W. exists h, A, (ps1 ++ [p]), (ns1 ++ [n]). rewrite W. split; [reflexivity|]. split; [exact S|]. split; [exact F|].
  rewrite E1, E2, <- !app_assoc, !app_length. cbn. repeat split; auto.
Qed.

Lemma swap_fine s n : lists_fine s -> lists_fine (swap_w s n).
Proof.
  intros (F1 & F2 & F3). split; [exact F1|split; [|exact F3]]. intros l m I. destruct (F2 l m I) as (B & W). split; auto.
  unfold swap_w. cbn [w0 w1 set_w0 set_w1]. destruct (Nat.eq_dec m n) as [->|N].
  - rewrite !updn_same. tauto.
  - rewrite !updn_other by auto. tauto.
Qed.

Lemma step_sim key p ps n ns s x : conflict s = false -> halfway key (p :: ps) (n :: ns) s x ->
  load (snd x) p = Ok (mkRec n (first_or ps None) (r_prev (match mem (snd x) p with Some r => r | None => mkRec 0 None None end))) /\
  sim (halfway key ps ns) (wfalsify_step key s n) (h_step key x p).
Proof.
  intros C (h & A & ps1 & ns1 & -> & S & F & EA & EW & L). cbn [snd].
  assert (M : mem h p = Some (mkRec n (first_or ps None) (last_or None ps1))).
  { destruct S as (S & _). destruct (S key) as (_ & LK). rewrite EA, EW in LK. apply linked_app in LK; auto.
    destruct LK as (_ & LK). apply LK. }
  split; [unfold load; rewrite M; reflexivity|].
  unfold wfalsify_step, h_step. rewrite C. unfold load. rewrite M. cbn [bind c_num].
  apply sim_same; [reflexivity|]. intros ls Els. apply sim_same; [reflexivity|]. intros v Ev.
  assert (NEXT : forall s', lists_fine s' -> wls s' = wls s -> halfway key ps ns s' (bare s', h)).
  { intros s' F' W. eapply halfway_next; eauto. }
  assert (SWAP : forall s', lists_fine s' -> wls s' = wls s -> cl s' = cl s ->
            sim (halfway key ps ns) (swap_pointer s' key n) (h_swap_pointer (bare s', h) p)).
  { intros s' F' W CL. unfold swap_pointer, h_swap_pointer. unfold load. rewrite M. cbn [bind c_num].
    apply sim_same; [reflexivity|]. intros ls' Els'. cbn [bare w0 w1 tr set_wls].
    apply sim_same; [reflexivity|]. intros v2 Ev2. destruct v2.
    - apply sim_ok. apply (NEXT (set_confcl (set_conflict s' true) n)); auto.
    - apply sim_same; [reflexivity|]. intros [l|] El.
      + unfold remove_record. destruct (lit_eqb_spec key (w0 s' n)) as [EK|NK]; [|destruct (chk (tr s') (w0 s' n)) as [?|u|] eqn:EC; cbn [bind sim]; auto;
          unfold chk in EC; destruct (lit_ok (tr s') (w0 s' n)) eqn:LO; try discriminate; injection EC as <-; unfold h_remove, chk; cbn [bare tr set_wls]; rewrite LO; reflexivity].
        rewrite <- EK. destruct (chk (tr s') key) as [?|u|] eqn:EC.
        2:{ unfold chk in EC; destruct (lit_ok (tr s') key) eqn:LO; try discriminate; injection EC as <-. cbn [bind sim].
            unfold h_remove, chk; cbn [bare tr set_wls]; rewrite LO; reflexivity. }
        2:{ unfold chk in EC; destruct (lit_ok (tr s') key); discriminate. }
        cbn [bind]. assert (LO : lit_ok (tr s') key = true) by (unfold chk in EC; destruct (lit_ok (tr s') key); auto; discriminate).
        rewrite W, EW. pose proof (proj1 F' key) as ND. rewrite W, EW in ND.
        pose proof (NoDup_remove_2 _ _ _ ND) as NI. pose proof (NoDup_remove_1 _ _ _ ND) as ND2.
        rewrite remove_one_mid by (intro; apply NI, in_or_app; auto). cbn [bind].
        destruct (remove_stored (bare s') h A (wls s) key ps1 p ps ns1 n ns S LO EA EW L) as (h1 & E1 & _ & S1). rewrite E1. cbn [bind].
        unfold add_record. cbn [tr set_wls]. destruct (lit_ok (tr s') l) eqn:LL.
        2:{ unfold h_add, chk. cbn [tr bare set_wls]. rewrite LL. reflexivity. }
        destruct (add_stored (bare s') h1 _ _ l n S1 LL) as (h2 & E2 & S2). rewrite E2. unfold chk. rewrite LL. cbn [bind].
        set (W2 := updl (updl (wls s) key (ns1 ++ ns)) l (n :: updl (wls s) key (ns1 ++ ns) l)).
        set (s2 := set_w0 (set_wls (set_wls s' (updl (wls s) key (ns1 ++ ns))) W2) (updn (w0 s') n l)).
        apply find_repl_other in El.
        assert (FR : ~ In n (updl (wls s) key (ns1 ++ ns) l)).
        { destruct (lit_eqb_spec l key) as [->|N]; [rewrite updl_same; auto|]. rewrite updl_other by auto. rewrite <- W. intro I.
          apply F' in I. destruct I as (_ & [I|I]); congruence. }
        assert (F2 : lists_fine s2).
        { destruct F' as (G1 & G2 & G3). split; [|split; [|exact G3]].
          - intro m. cbn [s2 wls set_w0 set_wls]. unfold W2. destruct (lit_eqb_spec m l) as [->|N].
            + rewrite updl_same. constructor; auto. destruct (lit_eqb_spec l key) as [->|N2]; [rewrite updl_same; auto|].
              rewrite updl_other by auto. rewrite <- W. auto.
            + rewrite updl_other by auto. destruct (lit_eqb_spec m key) as [->|N2]; [rewrite updl_same; auto|].
              rewrite updl_other by auto. rewrite <- W. auto.
          - intros m k I. cbn [s2 wls set_w0 set_wls cl w0 w1] in *.
            assert (OLD : In k (wls s' m) -> (m = key -> k <> n) -> (k < length (cl s'))%nat /\ (m = updn (w0 s') n l k \/ m = w1 s' k)).
            { intros J K. destruct (G2 m k J) as (B & D). split; auto. destruct (Nat.eq_dec k n) as [->|N].
              - rewrite updn_same. destruct D as [->|D]; [exfalso; apply K; auto|auto].
              - rewrite updn_other by auto. auto. }
            assert (SUB : forall m', In k (updl (wls s) key (ns1 ++ ns) m') -> In k (wls s' m') /\ (m' = key -> k <> n)).
            { intros m' J. destruct (lit_eqb_spec m' key) as [->|N].
              - rewrite updl_same in J. split; [|intros _ ->; auto]. rewrite W, EW. apply in_app_or in J. apply in_or_app.
                destruct J; auto. right; right; auto.
              - rewrite updl_other in J by auto. rewrite W. split; auto. }
            unfold W2 in I. destruct (lit_eqb_spec m l) as [->|N].
            + rewrite updl_same in I. destruct I as [<-|I].
              * split; [|left; rewrite updn_same; auto]. assert (X : In n (wls s' key)) by (rewrite W, EW; apply in_or_app; right; left; auto).
                apply (G2 key n X).
              * apply SUB in I. apply OLD; tauto.
            + rewrite updl_other in I by auto. apply SUB in I. apply OLD; tauto. }
        apply sim_ok.
        assert (K : halfway key ps ns s2 (bare s2, h2)).
        { unfold lists_add in S2. unfold halfway. destruct (lit_eqb_spec key l) as [<-|N].
          - eexists h2, _, (brk h1 :: ps1), (n :: ns1). split; [reflexivity|]. split; [exact S2|]. split; [exact F2|].
            cbn [s2 wls set_w0 set_wls]. unfold W2. rewrite !updl_same. repeat split; auto. cbn. lia.
          - eexists h2, _, ps1, ns1. split; [reflexivity|]. split; [exact S2|]. split; [exact F2|].
            cbn [s2 wls set_w0 set_wls]. unfold W2. rewrite (updl_other _ l _ key), (updl_other _ l _ key), !updl_same by auto. auto. }
        exact K.
      + apply sim_ok. apply (NEXT (set_ulist s' (n :: ulist s'))); auto.
    - apply sim_ok. apply (NEXT (set_confcl (set_conflict s' true) n)); auto. }
  destruct v.
  - apply sim_ok. apply NEXT; auto.
  - apply sim_same; [reflexivity|]. intros v2 Ev2. destruct v2.
    + apply sim_ok. apply (NEXT (swap_w s n)); auto. apply swap_fine; auto.
    + change (w1 (bare s) n) with (w1 s n). destruct (lit_eqb (w1 s n) key).
      * apply (SWAP (swap_w s n)); auto. apply swap_fine; auto.
      * apply SWAP; auto.
    + change (w1 (bare s) n) with (w1 s n). destruct (lit_eqb (w1 s n) key).
      * apply (SWAP (swap_w s n)); auto. apply swap_fine; auto.
      * apply SWAP; auto.
  - apply sim_same; [reflexivity|]. intros v2 Ev2. destruct v2.
    + apply sim_ok. apply (NEXT (swap_w s n)); auto. apply swap_fine; auto.
    + change (w1 (bare s) n) with (w1 s n). destruct (lit_eqb (w1 s n) key).
      * apply (SWAP (swap_w s n)); auto. apply swap_fine; auto.
      * apply SWAP; auto.
    + change (w1 (bare s) n) with (w1 s n). destruct (lit_eqb (w1 s n) key).
      * apply (SWAP (swap_w s n)); auto. apply swap_fine; auto.
      * apply SWAP; auto.
Qed.

Lemma steps_conflict key : forall ns s, conflict s = true -> foldM (wfalsify_step key) ns s = Ok s.
Proof. induction ns as [|n ns IH]; intros s C; cbn [foldM]; auto. unfold wfalsify_step at 1. rewrite C. cbn [bind]. auto. Qed.

Lemma halfway_length key ps ns s x : halfway key ps ns s x -> length ps = length ns.
Proof.
  intros (h & A & ps1 & ns1 & -> & S & F & EA & EW & L). destruct S as (S & _). destruct (S key) as (_ & LK).
  apply linked_length in LK. rewrite EA, EW, !app_length in LK. lia.
Qed.
Lemma halfway_rel key ps ns s x : halfway key ps ns s x -> rel s x.
Proof. intros (h & A & ps1 & ns1 & -> & S & F & _). split; [reflexivity|]. split; [exists A; exact S|exact F]. Qed.

Lemma walk_sim key : forall ns ps s x fuel, halfway key ps ns s x -> (length ps <= fuel)%nat ->
  sim rel (foldM (wfalsify_step key) ns s) (h_walk fuel key x (first_or ps None)).
Proof.
  induction ns as [|n ns IH]; intros ps s x fuel H B.
  - pose proof (halfway_length _ _ _ _ _ H) as L. destruct ps; [|discriminate]. cbn [foldM first_or].
    destruct fuel; apply sim_ok; eapply halfway_rel; eauto.
  - pose proof (halfway_length _ _ _ _ _ H) as L. destruct ps as [|p ps]; [discriminate|]. cbn [first_or].
    destruct (conflict s) eqn:C.
    + rewrite steps_conflict by auto. pose proof (halfway_rel _ _ _ _ _ H) as R. destruct fuel; cbn [h_walk];
        (replace (conflict (fst x)) with true by (rewrite (proj1 R); auto)); apply sim_ok; auto.
    + destruct fuel as [|fuel]; [cbn in B; lia|]. pose proof (halfway_rel _ _ _ _ _ H) as R. cbn [h_walk foldM].
      replace (conflict (fst x)) with false by (rewrite (proj1 R); auto).
      destruct (step_sim key p ps n ns s x C H) as (E & ST). rewrite E. cbn [bind r_next].
      eapply sim_bind; [exact ST|]. intros s' x' _ H'. apply IH; auto. cbn in B. lia.
Qed.

Lemma falsify_sim s x l : rel s x -> sim rel (wfalsify s l) (h_falsify x l).
Proof.
  intros (E & (A & S) & F). unfold wfalsify, h_falsify. rewrite E. apply sim_same; [reflexivity|]. intros [] _.
  destruct x as [s0 h]. cbn [fst snd] in *. subst s0. pose proof S as (S1 & S2 & _). rewrite (proj1 (S1 l)).
  apply walk_sim.
  - exists h, A, [], []. split; [reflexivity|]. split; [exact S|]. split; [exact F|]. auto.
  - rewrite <- (seq_length (brk h) 0). apply NoDup_incl_length; auto. intros p I. apply in_seq. pose proof (stored_below _ _ _ _ _ S I). lia.
Qed.

(** ** Propagation *)

Lemma assign_sim c s x v d a : rel s x -> sim rel (wassign_atom c s v d a) (h_assign c x v d a).
Proof.
  intros (E & H & F). unfold wassign_atom, h_assign. apply falsify_sim. rewrite E.
  assert (X : mark c (bare s) v d a = bare (mark c s v d a)) by (unfold mark; destruct (is_bk c); reflexivity).
  rewrite X. eapply rel_of; eauto; unfold mark; destruct (is_bk c); reflexivity.
Qed.

Lemma exclude_sim c v s x i : rel s x -> sim rel (wexclude c v s i) (h_exclude c v x i).
Proof.
  intros R. unfold wexclude, h_exclude. rewrite (proj1 R). cbn [bare conflict tr set_wls].
  destruct (conflict s); [apply sim_ok; auto|]. destruct (ASG (tr s) v i); try (apply sim_ok; auto). apply assign_sim. auto.
Qed.

Lemma reduce_pos_sim c s x v d : rel s x -> sim rel (wreduce_pos c s v d) (h_reduce_pos c x v d).
Proof.
  intros R. unfold wreduce_pos, h_reduce_pos. rewrite (proj1 R). apply sim_same; [reflexivity|]. intros _ _.
  eapply sim_bind; [apply assign_sim|].
  { change (push_dst (bare s) (mkLit v d true)) with (bare (push_dst s (mkLit v d true))). destruct R as (_ & H & F). eapply rel_of; eauto. }
  intros s1 x1 _ R1. eapply sim_bind; [apply (sim_foldM rel); [intros; apply exclude_sim; auto|auto]|].
  intros s2 x2 _ R2. rewrite (proj1 R2). apply (sim_foldM rel); [intros; apply exclude_sim; auto|auto].
Qed.

Lemma reduce_neg_sim c s x v d : rel s x -> sim rel (wreduce_neg c s v d) (h_reduce_neg c x v d).
Proof.
  intros R. unfold wreduce_neg, h_reduce_neg. rewrite (proj1 R). apply sim_same; [reflexivity|]. intros _ _.
  eapply sim_bind; [apply assign_sim|].
  { change (push_dst (bare s) (mkLit v d false)) with (bare (push_dst s (mkLit v d false))). destruct R as (_ & H & F). eapply rel_of; eauto. }
  intros s1 [s1' h1] _ R1. destruct R1 as (E1 & H1 & F1). cbn [fst snd] in *. subst s1'. cbn [bare tr set_wls].
  destruct (check_entail (tr s1) v) as [e|]; [|apply sim_ok; split; auto].
  apply reduce_pos_sim.
  change (set_uclause (set_entails (bare s1) (entails (bare s1) + 1)) REnt) with (bare (set_uclause (set_entails s1 (entails s1 + 1)) REnt)).
  eapply rel_of; eauto.
Qed.

Lemma reduce_sim c s x l : rel s x -> sim rel (wreduce_theory c s l) (h_reduce c x l).
Proof. intro R. unfold wreduce_theory, h_reduce. destruct (leq l); [apply reduce_pos_sim|apply reduce_neg_sim]; auto. Qed.

Lemma rel_set s h s' : rel s (bare s, h) -> wls s' = wls s -> cl s' = cl s -> w0 s' = w0 s -> w1 s' = w1 s -> rel s' (bare s', h).
Proof. intros (_ & H & F). eapply rel_of; eauto. Qed.
Lemma rel_form s x : rel s x -> x = (bare s, snd x).
Proof. intros (E & _). destruct x; cbn in *; subst; auto. Qed.

Lemma rel_inv s x : rel s x -> exists h, x = (bare s, h) /\ rel s (bare s, h).
Proof. intro R. exists (snd x). rewrite <- (rel_form _ _ R). auto. Qed.

Lemma propagate_sim c : forall fuel s x, rel s x -> sim rel (wunit_propagation fuel c s) (h_propagate fuel c x).
Proof.
  induction fuel as [|fuel IH]; intros s x R; [reflexivity|]. cbn [wunit_propagation h_propagate].
  destruct (rel_inv _ _ R) as (h & -> & R'). clear R. rename R' into R. change (conflict (bare s)) with (conflict s).
  change (ulist (bare s)) with (ulist s).
  destruct (conflict s); [apply sim_ok; auto|]. destruct (ulist s) as [|n rest] eqn:EU; [apply sim_ok; auto|].
  set (s1 := set_ulist (set_uclause s (RCls n)) rest). change (set_ulist (set_uclause (bare s) (RCls n)) rest) with (bare s1).
  assert (R1 : rel s1 (bare s1, h)) by (eapply rel_set; eauto). clearbody s1. clear R EU.
  assert (K : forall l, sim rel (let* s0 := wreduce_theory c s1 l in wunit_propagation fuel c (set_units s0 (units s0 + 1)))
                (let* x := h_reduce c (bare s1, h) l in let (s0, h0) := x in h_propagate fuel c (set_units s0 (units s0 + 1), h0))).
  { intro l. eapply sim_bind; [apply reduce_sim; auto|]. intros s2 [s2' h2] _ R2. destruct R2 as (E2 & H2 & F2). cbn [fst snd] in *. subst s2'.
    apply IH. change (set_units (bare s2) (units (bare s2) + 1)) with (bare (set_units s2 (units s2 + 1))). eapply rel_of; eauto. }
  apply sim_same; [reflexivity|]. intros ls _. apply sim_same; [reflexivity|]. intros r _. destruct r.
  - apply sim_same; [reflexivity|]. intros r2 _. destruct r2; [apply IH; auto|apply K|apply IH; auto].
  - apply K.
  - apply sim_same; [reflexivity|]. intros r2 _. destruct r2; [apply IH; auto|apply K|apply IH; auto].
Qed.

(** ** Learning *)

Lemma resolve_nodup ls l r : NoDup ls -> NoDup (resolve ls l r).
Proof.
  intro N. unfold resolve. assert (X : NoDup (filter (fun x => negb (falsifies x (neg l))) ls)) by (apply NoDup_filter; auto).
  revert X. generalize (filter (fun x => negb (falsifies x (neg l))) ls). induction r as [|x r IH]; intros acc X; cbn [fold_left]; auto.
  apply IH. destruct (negb (falsifies x l) && negb (has_atom acc x)) eqn:E; auto. apply andb_true_iff in E. destruct E as (_ & E).
  apply negb_true_iff in E. rewrite <- (rev_involutive (acc ++ [x])). apply NoDup_rev. rewrite rev_app_distr. cbn. constructor; [|apply NoDup_rev; auto].
  rewrite <- in_rev. intro I. unfold has_atom in E. assert (K : existsb (lit_eqb x) acc = true); [|congruence].
  apply existsb_exists. exists x. split; auto. destruct (lit_eqb_spec x x); congruence.
Qed.

(** The two literals found are different, or the second is none. *)
Lemma watched_differ t : forall ls b1 b2 a b, NoDup ls -> ~ In (fst b1) ls -> ~ In (fst b2) ls -> (fst b1 = fst b2 -> fst b2 = nolit) ->
  ~ In nolit ls -> assign_watched_loop t ls b1 b2 = Ok (a, b) -> a = b -> b = nolit.
Proof.
  induction ls as [|l ls IH]; intros b1 b2 a b N I1 I2 D NN H; cbn [assign_watched_loop] in H.
  - injection H as <- <-. auto.
  - destruct (chk t l); cbn [bind] in H; try discriminate. inversion N as [|? ? N1 N2]; subst.
    assert (X1 : ~ In (fst b1) ls) by (intro; apply I1; right; auto). assert (X2 : ~ In (fst b2) ls) by (intro; apply I2; right; auto).
    assert (X3 : ~ In nolit ls) by (intro; apply NN; right; auto). assert (X4 : l <> nolit) by (intros ->; apply NN; left; auto).
    destruct (snd b1 <? lidx t l); [|destruct (snd b2 <? lidx t l)].
    + revert H. apply IH; auto. cbn [fst]. intros ->. destruct I1. left; auto.
    + revert H. apply IH; auto. cbn [fst]. intros <-. destruct I1. left; auto.
    + revert H. apply IH; auto.
Qed.

Lemma learn_atoms_bare c n : forall ls s, watch c = true ->
  foldM (learn_atom c n) ls (bare s) = (let* s' := foldM (learn_atom c n) ls s in Ok (bare s')) /\
  (forall s', foldM (learn_atom c n) ls s = Ok s' -> wls s' = wls s /\ cl s' = cl s /\ w0 s' = w0 s /\ w1 s' = w1 s).
Proof.
  assert (BO : forall js s v d, fold_left (fun s j => if j =? d then s else bump s (mkLit v j true)) js (bare s) =
                 bare (fold_left (fun s j => if j =? d then s else bump s (mkLit v j true)) js s) /\
               let s' := fold_left (fun s j => if j =? d then s else bump s (mkLit v j true)) js s in
               wls s' = wls s /\ cl s' = cl s /\ w0 s' = w0 s /\ w1 s' = w1 s).
  { induction js as [|j js IH]; intros s v d; cbn [fold_left]; auto.
    assert (X : (if j =? d then bare s else bump (bare s) (mkLit v j true)) = bare (if j =? d then s else bump s (mkLit v j true)))
      by (destruct (j =? d); reflexivity).
    rewrite X. destruct (IH (if j =? d then s else bump s (mkLit v j true)) v d) as (Y1 & Y2). split; auto.
    cbv zeta in *. destruct Y2 as (-> & -> & -> & ->). destruct (j =? d); auto. }
  induction ls as [|l ls IH]; intros s W; cbn [foldM]; [split; [reflexivity|intros s' H; injection H as <-; auto]|].
  assert (ONE : learn_atom c n (bare s) l = (let* s' := learn_atom c n s l in Ok (bare s')) /\
            forall s', learn_atom c n s l = Ok s' -> wls s' = wls s /\ cl s' = cl s /\ w0 s' = w0 s /\ w1 s' = w1 s).
  { unfold learn_atom. cbn [bare tr set_wls]. destruct (chk (tr s) l) as [u|u|]; cbn [bind]; [|split; [reflexivity|discriminate]|split; [reflexivity|discriminate]].
    rewrite W. destruct (heur c); try (split; [reflexivity|intros s' H; injection H as <-; auto]; fail).
    destruct (leq l); [split; [reflexivity|intros s' H; injection H as <-; auto]|]. unfold bump_others. cbn [bare tr set_wls].
    destruct (BO (zrange 0 (DOM (tr s) (lvar l))) s (lvar l) (lval l)) as (Y1 & Y2). unfold bare in Y1 at 1. unfold set_wls in *. cbn [tr] in *.
    split; [f_equal; exact Y1|intros s' H; injection H as <-; exact Y2]. }
  destruct ONE as (E & K). rewrite E. destruct (learn_atom c n s l) as [s1|u|]; cbn [bind]; [|split; [reflexivity|discriminate]|split; [reflexivity|discriminate]].
  destruct (IH s1 W) as (IH1 & IH2). split; [exact IH1|]. intros s' H. destruct (IH2 s' H) as (-> & -> & -> & ->). apply K. reflexivity.
Qed.

Lemma decay_bare c s : decay c (bare s) = bare (decay c s) /\
  wls (decay c s) = wls s /\ cl (decay c s) = cl s /\ w0 (decay c s) = w0 s /\ w1 (decay c s) = w1 s.
Proof.
  assert (G : forall (f : state -> Z * Z -> state), (forall s a, f (bare s) a = bare (f s a) /\ wls (f s a) = wls s /\ cl (f s a) = cl s /\ w0 (f s a) = w0 s /\ w1 (f s a) = w1 s) ->
    forall as_ s, fold_left f as_ (bare s) = bare (fold_left f as_ s) /\ wls (fold_left f as_ s) = wls s /\ cl (fold_left f as_ s) = cl s /\
      w0 (fold_left f as_ s) = w0 s /\ w1 (fold_left f as_ s) = w1 s).
  { intros f H. induction as_ as [|a as_ IH]; intro s0; cbn [fold_left]; auto. destruct (H s0 a) as (-> & E1 & E2 & E3 & E4).
    destruct (IH (f s0 a)) as (-> & -> & -> & -> & ->). auto. }
  unfold decay. destruct (heur c); auto; apply G; intros; repeat split; reflexivity.
Qed.

Lemma add_rel s x l n : rel s x -> ~ In n (wls s l) -> (n < length (cl s))%nat -> (l = w0 s n \/ l = w1 s n) ->
  sim rel (add_record s l n) (h_add x l n).
Proof.
  intros R NI B W. rewrite (rel_form _ _ R). destruct R as (_ & (A & S) & (F1 & F2 & F3)). unfold add_record.
  destruct (lit_ok (tr s) l) eqn:LO.
  - destruct (add_stored (bare s) (snd x) A (wls s) l n S LO) as (h' & E & S'). rewrite E. unfold chk. rewrite LO. cbn [bind]. apply sim_ok.
    split; [reflexivity|]. split; [exists (lists_add A l (brk (snd x))); exact S'|]. split; [|split; [|exact F3]].
    + intro m. cbn [wls set_wls]. destruct (lit_eqb_spec m l) as [->|N]; [rewrite updl_same; constructor; auto|rewrite updl_other; auto].
    + intros m k I. cbn [wls set_wls cl w0 w1] in *. destruct (lit_eqb_spec m l) as [->|N]; [|rewrite updl_other in I; auto].
      rewrite updl_same in I. destruct I as [<-|I]; auto.
  - unfold h_add, chk. cbn [bare tr set_wls]. rewrite LO. reflexivity.
Qed.

(** A new clause, before it gets its records. *)
Lemma new_clause_rel s h ls a b nm cv wb : rel s (bare s, h) -> NoDup ls -> wb = updn (w1 s) (length (cl s)) b \/ wb = w1 s ->
  let s1 := set_w1 (set_w0 (set_clev (set_num (set_cl s (cl s ++ [ls])) nm) cv) (updn (w0 s) (length (cl s)) a)) wb in
  rel s1 (bare s1, h) /\ forall l, ~ In (length (cl s)) (wls s1 l).
Proof.
  intros R N HB s1. destruct R as (_ & H & (F1 & F2 & F3)).
  assert (FR : forall l k, In k (wls s l) -> k <> length (cl s)). { intros l k I. apply F2 in I. lia. }
  split; [|intros l I; apply (FR l) in I; auto]. split; [reflexivity|]. split; [exact H|]. split; [exact F1|]. split.
  - intros l k I. cbn [s1 wls set_w1 set_w0 set_clev set_num set_cl cl w0 w1] in *. pose proof (FR l k I). apply F2 in I. destruct I as (B & D). split.
    + rewrite app_length. lia.
    + rewrite updn_other by auto. destruct HB as [->| ->]; rewrite ?updn_other by auto; auto.
  - intros l I. cbn [s1 set_w1 set_w0 set_clev set_num set_cl cl] in I. apply in_app_or in I. destruct I as [I|[<-|[]]]; auto.
Qed.

Lemma learn_sim c s x ls a b : watch c = true -> rel s x -> NoDup ls -> ((1 < length ls)%nat -> a = b -> b = nolit) ->
  sim rel (learn_clause c s ls a b) (h_learn c x ls a b).
Proof.
  intros W R N D. unfold learn_clause, h_learn. rewrite W. destruct (rel_inv _ _ R) as (h & -> & R'). clear R. rename R' into R.
  destruct (new_clause_rel s h ls a b (updn (num s) (length (cl s)) 0) (updn (clev s) (length (cl s)) (-1)) _ R N (or_introl eq_refl)) as (R1 & FR).
  set (s1 := set_w1 _ _) in *. cbn zeta.
  change (length (cl (bare s))) with (length (cl s)).
  match goal with |- sim _ _ (bind (h_add (?t, h) a _) _) => change t with (bare s1) end.
  match goal with |- sim _ (bind (bind (add_record ?t a _) _) _) _ => change t with s1 end.
  assert (BK : forall f : state -> outcome state, forall g : state -> outcome state,
     (let* s0 := (let* s0 := add_record s1 a (length (cl s)) in g s0) in f s0) = (let* s0 := add_record s1 a (length (cl s)) in let* s0 := g s0 in f s0)).
  { intros f g. destruct (add_record s1 a (length (cl s))); reflexivity. }
  rewrite BK. assert (LN : (length (cl s) < length (cl s1))%nat) by (cbn; rewrite app_length; cbn; lia).
  eapply sim_bind; [apply add_rel; auto; left; cbn; rewrite updn_same; auto|].
  intros s2 x2 E2 R2.
  assert (X2 : lit_ok (tr s1) a = true /\ s2 = set_wls s1 (updl (wls s1) a (length (cl s) :: wls s1 a))).
  { unfold add_record, chk in E2. destruct (lit_ok (tr s1) a); cbn [bind] in E2; [injection E2 as <-; auto|discriminate]. }
  destruct X2 as (LA & X2).
  eapply (sim_bind rel).
  { destruct (Nat.ltb_spec 1 (length ls)) as [LL|LL]; [|apply sim_ok; auto].
    destruct (lit_eqb_spec a b) as [AB|AB].
    - rewrite <- AB in D. rewrite (D LL eq_refl) in LA. discriminate.
    - apply add_rel; auto; rewrite X2; cbn [wls set_wls cl w0 w1].
      + rewrite updl_other by auto. apply FR.
      + cbn; rewrite app_length; cbn; lia.
      + right. cbn. rewrite updn_same. auto. }
  intros s3 x3 _ R3. destruct (rel_inv _ _ R3) as (h3 & -> & R3'). clear R3. rename R3' into R3.
  destruct (learn_atoms_bare c (length (cl s)) ls s3 W) as (E4 & K4). rewrite E4.
  destruct (foldM (learn_atom c (length (cl s))) ls s3) as [s4|u|]; cbn [bind]; [|destruct u; reflexivity|reflexivity].
  destruct (K4 s4 eq_refl) as (U1 & U2 & U3 & U4). destruct (decay_bare c s4) as (V0 & V1 & V2 & V3 & V4). rewrite V0.
  destruct (lenient c); [|reflexivity]. apply sim_ok. eapply rel_set; eauto; congruence.
Qed.

Lemma analyze_sim c : watch c = true -> forall fuel s x ls a b temp, rel s x -> NoDup ls -> (temp = true -> (1 < length ls)%nat -> a = b -> b = nolit) ->
  sim (fun p q => rel (fst p) (fst q) /\ snd p = snd q) (analyze fuel c s ls a b temp) (h_analyze fuel c x ls a b temp).
Proof.
  intro W. induction fuel as [|fuel IH]; intros s x ls a b temp R N D; [reflexivity|]. cbn [analyze h_analyze].
  apply sim_same; [rewrite (proj1 R); reflexivity|]. intros q _. destruct q.
  - destruct temp; [|reflexivity]. eapply sim_bind; [apply learn_sim; auto|]. intros s' x' _ R'. apply sim_ok. auto.
  - rewrite W. cbn [bind]. apply sim_same; [rewrite (proj1 R); reflexivity|]. intros r _.
    apply sim_same; [rewrite (proj1 R); reflexivity|]. intros w Ew. pose proof (resolve_nodup ls a r N) as N'.
    apply IH; auto. intros _ _. destruct w as [w1 w2]. unfold assign_watched in Ew. cbn [fst snd].
    assert (NN : ~ In nolit (resolve ls a r)).
    { intro I. clear -I Ew. revert I Ew. generalize (nolit, -1) at 2 as b2. generalize (nolit, -1) as b1.
      induction (resolve ls a r) as [|y ys IHy]; intros b1 b2 I E; [destruct I|]. cbn [assign_watched_loop] in E. destruct I as [->|I].
      - cbn in E. discriminate.
      - destruct (chk (tr s) y); cbn [bind] in E; try discriminate. destruct (snd b1 <? lidx (tr s) y); [eauto|]. destruct (snd b2 <? lidx (tr s) y); eauto. }
    apply (watched_differ _ _ (nolit, -1) (nolit, -1) _ _ N' NN NN (fun _ => eq_refl) NN Ew).
Qed.

(** ** The search *)

Definition same_lists (s s' : state) : Prop := wls s' = wls s /\ cl s' = cl s /\ w0 s' = w0 s /\ w1 s' = w1 s.
(** A step that does not use the lists. *)
Definition apart (f : state -> outcome state) : Prop :=
  forall s, f (bare s) = (let* s' := f s in Ok (bare s')) /\ forall s', f s = Ok s' -> same_lists s s'.

Lemma apart_foldM {X} (f : state -> X -> outcome state) xs : (forall x, apart (fun s => f s x)) -> apart (foldM f xs).
Proof.
  intro H. induction xs as [|x xs IH]; intro s; cbn [foldM]; [split; [reflexivity|intros s' E; injection E as <-; repeat split]|].
  destruct (H x s) as (E & K). rewrite E. destruct (f s x) as [s1|u|]; cbn [bind]; [|split; [reflexivity|discriminate]|split; [reflexivity|discriminate]].
  destruct (IH s1) as (E1 & K1). split; [exact E1|]. intros s' E'. destruct (K1 s' E') as (A1 & A2 & A3 & A4). destruct (K s1 eq_refl) as (B1 & B2 & B3 & B4).
  repeat split; congruence.
Qed.

Lemma apart_sim f s h : apart f -> rel s (bare s, h) -> sim (fun a b => b = bare a /\ rel a (bare a, h)) (f s) (f (bare s)).
Proof.
  intros H R. destruct (H s) as (E & K). rewrite E. destruct (f s) as [s1|u|]; cbn [bind]; [|destruct u; reflexivity|reflexivity].
  destruct (K s1 eq_refl) as (K1 & K2 & K3 & K4). apply sim_ok. split; auto. eapply rel_set; eauto.
Qed.

Lemma wundo_apart lev : apart (fun s => wundo_theory s lev).
Proof.
  intro s. unfold wundo_theory.
  assert (U : forall as_, apart (foldM (wundo1 lev) as_)).
  { intro as_. apply apart_foldM. intros [v d] s0. unfold wundo1. cbn [bind].
    change (ALEV (tr (bare s0)) v d) with (ALEV (tr s0) v d). destruct (lev <? ALEV (tr s0) v d); (split; [reflexivity|intros s' E; injection E as <-; repeat split]). }
  destruct (U (atoms_from (tr s) 1) s) as (E & K). change (atoms_from (tr (bare s)) 1) with (atoms_from (tr s) 1). rewrite E.
  destruct (foldM (wundo1 lev) (atoms_from (tr s) 1) s) as [s1|u|]; cbn [bind]; [|split; [reflexivity|discriminate]|split; [reflexivity|discriminate]].
  destruct (K s1 eq_refl) as (K1 & K2 & K3 & K4). unfold prune_dst. change (tr (bare s1)) with (tr s1).
  destruct (forallb (lit_ok (tr s1)) (DST (tr s1))); [|split; [reflexivity|discriminate]]. split; [reflexivity|].
  intros s' E'. injection E' as <-. repeat split; auto.
Qed.

Lemma conflict_sim c fuel r rc s x : watch c = true -> rel s x ->
  sim (fun p q => rel (fst p) (fst q) /\ snd p = snd q) (wl_conflict fuel c r rc s) (h_conflict fuel c r rc x).
Proof.
  intros W R. unfold wl_conflict, h_conflict. rewrite (proj1 R). change (confcl (bare s)) with (confcl s). change (w0 (bare s)) with (w0 s). change (w1 (bare s)) with (w1 s).
  apply sim_same; [reflexivity|]. intros ls Els.
  assert (N : NoDup ls). { unfold getcl in Els. destruct (nth_error (cl s) (confcl s)) eqn:E; [|discriminate]. injection Els as <-. apply R. eapply nth_error_In; eauto. }
  eapply sim_bind; [apply analyze_sim; auto; discriminate|].
  intros [s1 p1] [[s1' h1] q1] _ (R1 & EQ). cbn [fst snd] in *. subst q1. pose proof (proj1 R1) as E1. cbn [fst] in E1. subst s1'.
  apply sim_same; [reflexivity|]. intros lv _.
  set (s2 := set_conflict (set_backtracks (set_level s1 lv) (backtracks s1 + 1)) false).
  assert (R2 : rel s2 (bare s2, h1)) by (eapply rel_set; eauto).
  change (backtracks (bare s2)) with (backtracks s2).
  match goal with |- sim _ (if _ =? rc then bind (wundo_theory ?t 0) _ else _) _ => change t with s2 end.
  match goal with |- sim _ _ (if _ =? rc then bind (wundo_theory ?t 0) _ else _) => change t with (bare s2) end.
  clearbody s2. change (backtracks (bare s2)) with (backtracks s2). change (level (bare s2)) with (level s2).
  destruct (backtracks s2 =? rc).
  - eapply sim_bind; [apply (apart_sim (fun s => wundo_theory s 0)); [apply wundo_apart|exact R2]|].
    intros s3 s3' _ (-> & R3). apply sim_ok. cbn [fst snd]. split; [|reflexivity].
    change (level (set_restarts (bare s3) (restarts (bare s3) + 1))) with (level (set_restarts s3 (restarts s3 + 1))).
    destruct (level (set_restarts s3 (restarts s3 + 1)) =? 0).
    + apply (rel_set s3 h1 (set_level (only_last (set_restarts s3 (restarts s3 + 1))) 0)); auto.
    + apply (rel_set s3 h1 (set_level (set_ulist (set_restarts s3 (restarts s3 + 1)) []) 0)); auto.
  - eapply sim_bind; [apply (apart_sim (fun s => wundo_theory s (level s2))); [apply wundo_apart|exact R2]|].
    intros s3 s3' _ (-> & R3). apply sim_ok. cbn [fst snd]. split; [|reflexivity]. apply (rel_set s3 h1 (only_last s3)); auto.
Qed.

Lemma choose_bare c s : choose_wl c (bare s) = (let* q := choose_wl c s in Ok (bare (fst q), snd q)) /\ forall q, choose_wl c s = Ok q -> same_lists s (fst q).
Proof.
  assert (LW : forall cs n, lazy_watched (bare s) n cs = lazy_watched s n cs).
  { induction cs as [|k cs IH]; intro n; cbn [lazy_watched]; auto. change (tr (bare s)) with (tr s). change (w0 (bare s) n) with (w0 s n).
    destruct (sat (tr s) (w0 s n)) as [[]| |]; cbn [bind]; auto. }
  unfold choose_wl. destruct (heur c).
  - split; [reflexivity|]. intros q E. injection E as <-. repeat split.
  - split; [reflexivity|]. intros q E. injection E as <-. repeat split.
  - unfold choose_lazy_watched. change (cl (bare s)) with (cl s). rewrite LW.
    destruct (lazy_watched s 0 (cl s)) as [l| |]; cbn [bind]; [|split; [reflexivity|discriminate]|split; [reflexivity|discriminate]].
    split; [reflexivity|]. intros q E. injection E as <-. repeat split.
  - split; [reflexivity|]. intros q E. injection E as <-. repeat split.
Qed.

Lemma decide_sim c s x l : rel s x -> sim rel (wl_decide c s l) (h_decide c x l).
Proof.
  intro R. unfold wl_decide, h_decide. destruct (rel_inv _ _ R) as (h & -> & R'). apply reduce_sim.
  change (set_uclause (set_level (set_decisions (bare s) (decisions (bare s) + 1)) (level (set_decisions (bare s) (decisions (bare s) + 1)) + 1)) RDec)
    with (bare (set_uclause (set_level (set_decisions s (decisions s + 1)) (level s + 1)) RDec)).
  eapply rel_set; eauto.
Qed.

Lemma loop_sim c clk r : watch c = true -> forall fuel rc s x, rel s x ->
  sim (fun p q => fst p = fst q /\ rel (snd p) (snd q)) (wl_loop fuel c clk r rc s) (h_loop fuel c clk r rc x).
Proof.
  intro W. induction fuel as [|fuel IH]; intros rc s x R; [reflexivity|].
  destruct (rel_inv _ _ R) as (h & -> & R'). clear R. rename R' into R.
  cbn [wl_loop h_loop]. unfold check_time. change (tick (bare s)) with (tick s).
  change (set_tick (bare s) (S (tick s))) with (bare (set_tick s (S (tick s)))).
  assert (R1 : rel (set_tick s (S (tick s))) (bare (set_tick s (S (tick s))), h)) by (eapply rel_set; eauto).
  destruct (clk (tick s)); [apply sim_ok; split; auto|].
  generalize dependent (set_tick s (S (tick s))). clear s R. intros s R.
  change (conflict (bare s)) with (conflict s). change (level (bare s)) with (level s).
  destruct (conflict s && (level s =? 0)); [apply sim_ok; split; auto|].
  eapply (sim_bind (fun p q => rel (fst p) (fst q) /\ snd p = snd q)).
  { destruct (conflict s); [apply conflict_sim; auto|apply sim_ok; auto]. }
  intros [s1 rc1] [x1 rc1'] _ (R1 & EQ). cbn [fst snd] in R1, EQ. subst rc1'.
  eapply (sim_bind rel).
  { rewrite (proj1 R1). change (ulist (bare s1)) with (ulist s1). destruct (ulist s1); [apply sim_ok; auto|]. apply propagate_sim. auto. }
  intros s2 x2 _ R2. rewrite (proj1 R2). change (conflict (bare s2)) with (conflict s2). destruct (conflict s2); [apply IH; auto|].
  destruct (choose_bare c s2) as (E & K). rewrite E. destruct (choose_wl c s2) as [[s3 l]|u|]; cbn [bind fst snd]; [|destruct u; reflexivity|reflexivity].
  destruct (K _ eq_refl) as (K1 & K2 & K3 & K4). cbn [fst] in *.
  assert (R3 : rel s3 (bare s3, snd x2)). { rewrite (rel_form _ _ R2) in R2. eapply rel_set; eauto. }
  destruct (lvar l =? -1); [apply sim_ok; split; auto|].
  eapply sim_bind; [apply decide_sim; exact R3|]. intros s4 x4 _ R4. apply IH. auto.
Qed.

(** ** Building the lists *)

Lemma add_lit_apart c n l : watch c = true -> apart (fun s => add_lit c n s l).
Proof.
  intros W s. unfold add_lit. rewrite W. change (tr (bare s)) with (tr s).
  assert (OK : forall f : state -> state, (f (bare s) = bare (f s)) -> same_lists s (f s) ->
    (let* s0 := Ok (f (bare s)) in Ok s0) = (let* s' := (let* s0 := Ok (f s) in Ok s0) in Ok (bare s')) /\
    forall s', (let* s0 := Ok (f s) in Ok s0) = Ok s' -> same_lists s s').
  { intros f E1 E2. cbn [bind]. rewrite E1. split; [reflexivity|]. intros s' E. injection E as <-. auto. }
  assert (BO : forall js v d, fold_left (fun s j => if j =? d then s else bump s (mkLit v j true)) js (bare s) =
                 bare (fold_left (fun s j => if j =? d then s else bump s (mkLit v j true)) js s) /\
               same_lists s (fold_left (fun s j => if j =? d then s else bump s (mkLit v j true)) js s)).
  { intros js v d. clear. revert s. induction js as [|j js IH]; intros s; cbn [fold_left]; [split; auto; repeat split|].
    assert (X : (if j =? d then bare s else bump (bare s) (mkLit v j true)) = bare (if j =? d then s else bump s (mkLit v j true)))
      by (destruct (j =? d); reflexivity).
    rewrite X. destruct (IH (if j =? d then s else bump s (mkLit v j true))) as (Y1 & Y2). split; auto.
    destruct (j =? d); auto. }
  destruct (heur c).
  - destruct (chk (tr s) l) as [u|u|]; cbn [bind]; [|split; [reflexivity|discriminate]|split; [reflexivity|discriminate]].
    split; [reflexivity|]. intros s' E. injection E as <-. repeat split.
  - destruct (chk (tr s) l) as [u|u|]; cbn [bind]; [|split; [reflexivity|discriminate]|split; [reflexivity|discriminate]].
    split; [reflexivity|]. intros s' E. injection E as <-. repeat split.
  - cbn [bind]. split; [reflexivity|]. intros s' E. injection E as <-. repeat split.
  - destruct (leq l).
    + destruct (chk (tr s) l) as [u|u|]; cbn [bind]; [|split; [reflexivity|discriminate]|split; [reflexivity|discriminate]].
      split; [reflexivity|]. intros s' E. injection E as <-. repeat split.
    + destruct ((0 <=? lvar l) && (lvar l <=? NV (tr s))); [|split; [reflexivity|discriminate]].
      apply (OK (fun s => bump_others s (lvar l) (lval l))); unfold bump_others; change (tr (bare s)) with (tr s); apply BO.
Qed.

Lemma clause_sim c s x ls : watch c = true -> NoDup ls -> rel s x -> sim rel (add_clause c s ls) (h_add_clause c x ls).
Proof.
  intros W N R. unfold add_clause, h_add_clause. rewrite W. destruct (rel_inv _ _ R) as (h & -> & R'). clear R. rename R' into R.
  change (length (cl (bare s))) with (length (cl s)).
  eapply sim_bind; [apply (apart_sim (foldM (add_lit c (length (cl s))) ls)); [apply apart_foldM; intro; apply add_lit_apart; auto|exact R]|].
  intros s1 s1' E1 (-> & R1).
  assert (LN : cl s1 = cl s).
  { destruct (apart_foldM (add_lit c (length (cl s))) ls (fun l => add_lit_apart c _ l W) s) as (_ & K). apply (K s1 E1). }
  rewrite <- LN. clear R E1 LN s.
  destruct ls as [|a ls']; [reflexivity|].
  set (n := length (cl s1)).
  set (u := if Nat.eqb (length (a :: ls')) 1 then ulist s1 ++ [n] else ulist s1).
  set (s0 := set_ulist s1 u).
  assert (R0 : rel s0 (bare s0, h)) by (eapply rel_set; eauto).
  destruct (new_clause_rel s0 h (a :: ls') a a (updn (num s0) n (Z.of_nat (length (a :: ls')))) (updn (clev s0) n (-1)) _ R0 N (or_intror eq_refl)) as (R2 & FR).
  set (s2 := set_w1 _ _) in R2, FR.
  assert (X2 : forall t, set_w0 (if Nat.eqb (length (a :: ls')) 1
                      then set_ulist (set_clev (set_num (set_cl t (cl t ++ [a :: ls'])) (updn (num t) n (Z.of_nat (length (a :: ls'))))) (updn (clev t) n (-1))) (ulist t ++ [n])
                      else set_clev (set_num (set_cl t (cl t ++ [a :: ls'])) (updn (num t) n (Z.of_nat (length (a :: ls'))))) (updn (clev t) n (-1)))
                  (updn (w0 t) n a) =
                set_w1 (set_w0 (set_clev (set_num (set_cl (set_ulist t (if Nat.eqb (length (a :: ls')) 1 then ulist t ++ [n] else ulist t))
                  (cl t ++ [a :: ls'])) (updn (num t) n (Z.of_nat (length (a :: ls'))))) (updn (clev t) n (-1))) (updn (w0 t) n a)) (w1 t)).
  { intro t. destruct (Nat.eqb (length (a :: ls')) 1); reflexivity. }
  assert (Y1 : set_w0 (if Nat.eqb (length (a :: ls')) 1
                      then set_ulist (set_clev (set_num (set_cl s1 (cl s1 ++ [a :: ls'])) (updn (num s1) n (Z.of_nat (length (a :: ls'))))) (updn (clev s1) n (-1))) (ulist s1 ++ [n])
                      else set_clev (set_num (set_cl s1 (cl s1 ++ [a :: ls'])) (updn (num s1) n (Z.of_nat (length (a :: ls'))))) (updn (clev s1) n (-1)))
                  (updn (w0 s1) n a) = s2) by (rewrite X2; reflexivity).
  assert (Y2 : set_w0 (if Nat.eqb (length (a :: ls')) 1
                      then set_ulist (set_clev (set_num (set_cl (bare s1) (cl s1 ++ [a :: ls'])) (updn (num s1) n (Z.of_nat (length (a :: ls'))))) (updn (clev s1) n (-1))) (ulist s1 ++ [n])
                      else set_clev (set_num (set_cl (bare s1) (cl s1 ++ [a :: ls'])) (updn (num s1) n (Z.of_nat (length (a :: ls'))))) (updn (clev s1) n (-1)))
                  (updn (w0 s1) n a) = bare s2) by (destruct (Nat.eqb (length (a :: ls')) 1) eqn:Q; unfold s2, s0, u; rewrite ?Q; reflexivity).
  match goal with |- sim _ (bind (add_record ?t a _) _) _ => replace t with s2 by (rewrite <- Y1; destruct (Nat.eqb (length (a :: ls')) 1); reflexivity) end.
  match goal with |- sim _ _ (bind (h_add (?t, _) a _) _) => replace t with (bare s2) by (rewrite <- Y2; destruct (Nat.eqb (length (a :: ls')) 1); reflexivity) end.
  clear Y1 Y2 X2. assert (LN : (n < length (cl s2))%nat) by (cbn; rewrite app_length; unfold n; cbn; lia).
  eapply sim_bind; [apply add_rel; [exact R2|apply FR|exact LN|left; cbn; unfold n; rewrite updn_same; auto]|].
  intros s3 x3 E3 R3. destruct ls' as [|b ls'']; [apply sim_ok; auto|].
  destruct (rel_inv _ _ R3) as (h3 & -> & R3'). clear R3. rename R3' into R3. cbn [fst snd].
  assert (X3 : s3 = set_wls s2 (updl (wls s2) a (n :: wls s2 a))).
  { unfold add_record, chk in E3. destruct (lit_ok (tr s2) a); cbn [bind] in E3; [injection E3 as <-; auto|discriminate]. }
  set (s4 := set_w1 s3 (updn (w1 s3) n b)). change (set_w1 (bare s3) (updn (w1 (bare s3)) n b)) with (bare s4).
  assert (AB : a <> b). { inversion N as [|? ? N1 _]; subst. intros ->. apply N1. left; auto. }
  assert (R4 : rel s4 (bare s4, h3)).
  { destruct R3 as (_ & H3 & (G1 & G2 & G3)). split; [reflexivity|]. split; [exact H3|]. split; [exact G1|]. split; [|exact G3].
    intros l k I. cbn [s4 wls set_w1 cl w0 w1] in *. pose proof (G2 l k I) as (B & D). split; auto.
    destruct (Nat.eq_dec k n) as [->|NK]; [|rewrite updn_other; auto].
    rewrite X3 in I. cbn [wls set_wls] in I. destruct (lit_eqb_spec l a) as [->|NL].
    - left. rewrite X3. cbn. unfold n. rewrite updn_same. auto.
    - rewrite updl_other in I by auto. destruct (FR _ I). }
  apply add_rel; auto.
  - cbn [s4 wls set_w1]. rewrite X3. cbn [wls set_wls]. rewrite updl_other by auto. apply FR.
  - cbn [s4 cl set_w1]. rewrite X3. exact LN.
  - right. cbn [s4 w1 set_w1]. rewrite updn_same. auto.
Qed.

Lemma build_sim c is : watch c = true -> (forall ls, In (ICls ls) is -> NoDup ls) ->
  sim rel (build c is) (foldM (h_add_item c) is (init_state, no_heap)).
Proof.
  intros W H. unfold build.
  assert (R0 : rel init_state (init_state, no_heap)).
  { split; [reflexivity|]. split.
    - exists (fun _ => []). split; [|split; [|split]]; cbn; auto.
      + intros. constructor.
      + intros. contradiction.
      + congruence.
    - split; [|split]; cbn; [constructor|contradiction|contradiction]. }
  revert R0. generalize (init_state, no_heap) as x. generalize init_state as s. induction is as [|i is IH]; intros s x R; cbn [foldM]; [apply sim_ok; auto|].
  eapply (sim_bind rel); [|intros s1 x1 _ R1; apply IH; [intros ls I; apply H; right; exact I|exact R1]].
  destruct i as [d|ls]; cbn [add_item h_add_item].
  - destruct (rel_inv _ _ R) as (h & -> & R'). cbn [fst snd]. unfold add_domain. destruct (d <? 0); [reflexivity|]. apply sim_ok.
    match goal with |- rel ?s' _ => apply (rel_set s h s') end; auto.
  - apply clause_sim; auto. apply H. left; auto.
Qed.

Lemma solve_sim fuel c clk r p : watch c = true -> no_repeats p ->
  sim (fun a b => fst a = fst b /\ rel (snd a) (snd b)) (solve fuel NonChrono c clk r p) (h_solve fuel c clk r p).
Proof.
  intros W NR. unfold solve, h_solve. eapply sim_bind; [apply build_sim; auto|].
  { intros ls I. unfold items_of in I. apply in_app_or in I. destruct I as [I|I]; apply in_map_iff in I; destruct I as (y & E & I); try discriminate.
    injection E as ->. apply NR. auto. }
  intros s x _ R. unfold solve_state, run_search. rewrite W. unfold wl_search.
  eapply sim_bind; [apply loop_sim; auto|]. intros [v s1] [v' [s1' h1]] _ (EV & R1). cbn [fst snd] in *. subst v'.
  pose proof (proj1 R1) as E1. cbn [fst] in E1. subst s1'.
  destruct v; try (apply sim_ok; split; [reflexivity|exact R1]).
  apply sim_same; [reflexivity|]. intros b _. apply sim_ok. split; [reflexivity|exact R1].
Qed.
