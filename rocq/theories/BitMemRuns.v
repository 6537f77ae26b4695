(** * Building, learning and runs of the second solver with its memory *)

From Coq Require Import Floats.SpecFloat.
From Verif Require Import Spec Outcome State ModelHeur ModelSearch ModelBuild ModelHeap HeapSpec Base Heap
  ModelBit ModelBitMem BitMemSpec BitHeap BitMemSim BitResolve BitTrail BitSafe.

(** ** Objects that are not in CLAUSELIST *)

Lemma nodup_mid {A} (z : A) : forall l e, NoDup (l ++ e) -> ~ In z (l ++ e) -> NoDup (l ++ z :: e).
Proof.
  induction l as [|a l IH]; intros e N F; cbn [app] in *; [constructor; auto|].
  inversion N as [|? ? N1 N2]; subst. constructor.
  - intro I. apply in_app_or in I. destruct I as [I|[I|I]]; [apply N1, in_or_app; auto|apply F; left; auto|apply N1, in_or_app; auto].
  - apply IH; [auto|intro; apply F; right; auto].
Qed.

Lemma onew_obj x cs w0 w1 ex o : objects x cs w0 w1 ex ->
  objects (mkM (ms x) (mh x) (updn (mo x) (mbrk x) (Some o)) (S (mbrk x)) (mcl x)) cs w0 w1 ((mbrk x, o) :: ex).
Proof.
  intros (O1 & O2 & O3 & O4 & O5). assert (FR : ~ In (mbrk x) (mcl x ++ map fst ex)).
  { intro I. assert (A : mo x (mbrk x) <> None); [|apply O5 in A; lia]. apply in_app_or in I. destruct I as [I|I].
    - apply In_nth_error in I. destruct I as (n & EN). destruct (nth_error cs n) as [c|] eqn:EC.
      + rewrite (O3 _ _ _ EN EC). discriminate.
      + apply nth_error_None in EC. assert (n < length (mcl x))%nat by (apply nth_error_Some; congruence). lia.
    - apply in_map_iff in I. destruct I as ((a & o') & E & I). cbn in E. subst a. rewrite (O4 _ _ I). discriminate. }
  split; [|split; [exact O2|split; [|split]]]; cbn [mcl mo mbrk map fst].
  - apply nodup_mid; auto.
  - intros n a c EA EC. rewrite updn_other; [eauto|]. intros ->. apply FR, in_or_app. left. eapply nth_error_In; eauto.
  - intros a o' [E|I]; [injection E as <- <-; apply updn_same|]. rewrite updn_other; [auto|]. intros ->. apply FR, in_or_app. right.
    apply (in_map fst) in I. auto.
  - intros a H. destruct (Nat.eq_dec a (mbrk x)) as [->|N].
    + split; [lia|]. apply in_or_app. right. left. auto.
    + rewrite updn_other in H by auto. apply O5 in H. destruct H as (B & I). split; [lia|]. apply in_app_or in I. apply in_or_app. destruct I; auto. right. right. auto.
Qed.

Lemma ostore_ex x cs w0 w1 ex b o o' : objects x cs w0 w1 ((b, o) :: ex) ->
  ostore x b o' = Ok (mkM (ms x) (mh x) (updn (mo x) b (Some o')) (mbrk x) (mcl x)) /\
  objects (mkM (ms x) (mh x) (updn (mo x) b (Some o')) (mbrk x) (mcl x)) cs w0 w1 ((b, o') :: ex).
Proof.
  intros (O1 & O2 & O3 & O4 & O5). cbn [map fst] in *.
  pose proof (O4 b o (or_introl eq_refl)) as E. unfold ostore, oload. rewrite E. split; [reflexivity|].
  apply NoDup_remove_2 in O1 as NI. split; [exact O1|]. split; [exact O2|]. cbn [mcl mo mbrk map fst]. split; [|split].
  - intros n a c EA EC. rewrite updn_other; [eauto|]. intros ->. apply NI, in_or_app. left. eapply nth_error_In; eauto.
  - intros a o1 [I|I]; [injection I as <- <-; apply updn_same|]. rewrite updn_other; [apply O4; right; auto|]. intros ->.
    apply NI, in_or_app. right. apply (in_map fst) in I. auto.
  - intros a H. destruct (Nat.eq_dec a b) as [->|N]; [|rewrite updn_other in H by auto; auto]. apply O5. congruence.
Qed.

Lemma ofree_ex x cs w0 w1 ex b o t o1 : objects x cs w0 w1 ((b, o) :: (t, o1) :: ex) ->
  ofree x t = Ok (mkM (ms x) (mh x) (updn (mo x) t None) (mbrk x) (mcl x)) /\
  objects (mkM (ms x) (mh x) (updn (mo x) t None) (mbrk x) (mcl x)) cs w0 w1 ((b, o) :: ex).
Proof.
  intros (O1 & O2 & O3 & O4 & O5). cbn [map fst] in *.
  pose proof (O4 t o1 (or_intror (or_introl eq_refl))) as E. unfold ofree, oload. rewrite E. split; [reflexivity|].
  assert (O1' : NoDup ((mcl x ++ [b]) ++ t :: map fst ex)) by (rewrite <- app_assoc; exact O1).
  apply NoDup_remove_2 in O1' as NI. apply NoDup_remove_1 in O1'.
  rewrite <- app_assoc in O1', NI. cbn [app] in *.
  split; [exact O1'|]. split; [exact O2|]. cbn [mcl mo mbrk map fst]. split; [|split].
  - intros n a c EA EC. rewrite updn_other; [eauto|]. intros ->. apply NI, in_or_app. left. eapply nth_error_In; eauto.
  - intros a o2 I. rewrite updn_other; [apply O4; destruct I; [left|right; right]; auto|]. intros ->.
    apply NI, in_or_app. right. destruct I as [I|I]; [injection I as <- <-; left; auto|right; apply (in_map fst) in I; auto].
  - intros a H. destruct (Nat.eq_dec a t) as [->|N]; [rewrite updn_same in H; congruence|]. rewrite updn_other in H by auto.
    apply O5 in H. destruct H as (B & I). split; auto. apply in_app_or in I. apply in_or_app. destruct I as [I|[I|[I|I]]]; auto; try congruence; right; [left|right]; auto.
Qed.

(** The object enters CLAUSELIST. *)
Lemma push_obj x cs w0 w1 ex t c a b w0' w1' : objects x cs w0 w1 ((t, mkObj c a b) :: ex) ->
  w0' (length cs) = a -> w1' (length cs) = b -> (forall m, (m < length cs)%nat -> w0' m = w0 m /\ w1' m = w1 m) ->
  objects (set_mcl x (mcl x ++ [t])) (cs ++ [c]) w0' w1' ex.
Proof.
  intros (O1 & O2 & O3 & O4 & O5) E0 E1 EO. cbn [map fst] in *. split; [|split; [|split; [|split]]]; cbn [set_mcl mcl mo mbrk].
  - rewrite <- app_assoc. exact O1.
  - rewrite !app_length. cbn. lia.
  - intros n d k EN EK. destruct (Nat.lt_ge_cases n (length cs)) as [L|L].
    + rewrite nth_error_app1 in EN by lia. rewrite nth_error_app1 in EK by lia. destruct (EO n L) as (-> & ->). eauto.
    + assert (n = length cs). { apply Nat.le_antisymm; auto. assert (X : nth_error (cs ++ [c]) n <> None) by congruence. apply nth_error_Some in X. rewrite app_length in X. cbn in X. lia. }
      subst n. rewrite nth_error_app2 in EN by lia. rewrite nth_error_app2 in EK by lia. rewrite O2, Nat.sub_diag in EN. rewrite Nat.sub_diag in EK.
      cbn in EN, EK. injection EN as <-. injection EK as <-. rewrite E0, E1. apply O4. left; auto.
  - intros d o I. apply O4. right; auto.
  - intros d H. apply O5 in H. destruct H as (B & I). split; auto. rewrite <- app_assoc. exact I.
Qed.

(** ** Records *)

Lemma bvar_cases s v : bvar s v = Ok tt \/ bvar s v = Undef OobAtom.
Proof. unfold bvar. destruct (_ && _); auto. Qed.

Lemma add_sim ex s x v n : rel ex s x -> ~ In n (brec s v) -> (n < length (bcl s))%nat -> fst (bw0 s n) = v \/ fst (bw1 s n) = v ->
  sim (fun s' x' => rel ex s' x' /\ s' = set_brec s (upd1 (brec s) v (n :: brec s v)) /\ mcl x' = mcl x /\ mo x' = mo x) (badd_record s v n) (m_add x v n).
Proof.
  intros (E & (A & S) & O & F) NI LT W. unfold badd_record, m_add. rewrite E. apply sim_same; [reflexivity|]. intros [] _.
  destruct (badd_bstored (mh x) A (brec s) v n S) as (h' & -> & S'). cbn [bind]. apply sim_ok. split; [|auto].
  split; [exact E|]. split; [eexists; exact S'|]. split; [exact O|]. destruct F as (F1 & F2). split; cbn [brec bcl bw0 bw1 set_brec].
  - intro u. destruct (Z.eqb_spec u v) as [->|N]; [rewrite upd1_same; constructor; auto|rewrite upd1_other; auto].
  - intros u m I. destruct (Z.eqb_spec u v) as [->|N]; [|rewrite upd1_other in I by auto; auto]. rewrite upd1_same in I.
    destruct I as [<-|I]; [split; auto|auto].
Qed.

(** ** Scores *)

Definition unmoved (s s' : bst) : Prop := brec s' = brec s /\ bcl s' = bcl s /\ bw0 s' = bw0 s /\ bw1 s' = bw1 s.

Lemma bumps_bare : forall ls s, foldM bump_lit ls (bare s) = (let* s' := foldM bump_lit ls s in Ok (bare s')) /\
  (forall s', foldM bump_lit ls s = Ok s' -> unmoved s s').
Proof.
  induction ls as [|l ls IH]; intros s; cbn [foldM]; [split; [reflexivity|intros s' H; injection H as <-; unfold unmoved; auto]|].
  unfold bump_lit at 1 3 5. change (bvar (bare s) (fst l)) with (bvar s (fst l)). change (bdom (bare s)) with (bdom s).
  destruct (bvar s (fst l)) as [[]| |]; cbn [bind]; try (split; [reflexivity|discriminate]).
  destruct (max_domain <? bdom s (fst l)); cbn [bind]; [split; [reflexivity|discriminate]|].
  match goal with |- context [foldM bump_lit ls ?s1 = Ok _ -> _] => set (s2 := s1) end.
  destruct (IH s2) as (H1 & H2). split; [exact H1|]. intros s' H. destruct (H2 s' H) as (K1 & K2 & K3 & K4). split; [exact K1|split; [exact K2|split; [exact K3|exact K4]]].
Qed.

(** ** Learning *)

Lemma watched_differ s : forall c (b1 b2 : blit * Z) q, NoDup (map fst c) ->
  (fst (fst b1) = -1 \/ ~ In (fst (fst b1)) (map fst c)) -> (fst (fst b2) = -1 \/ ~ In (fst (fst b2)) (map fst c)) ->
  (fst (fst b1) = fst (fst b2) -> fst (fst b2) = -1) ->
  foldM (bwatch_step s) c (b1, b2) = Ok q -> fst (fst (fst q)) = fst (fst (snd q)) -> fst (fst (snd q)) = -1.
Proof.
  induction c as [|l c IH]; intros b1 b2 q N I1 I2 D H; cbn [foldM] in H; [injection H as <-; auto|].
  unfold bwatch_step at 1 in H. unfold bnode_of in H. destruct (bvar s (fst l)) as [[]| |] eqn:BV; cbn [bind] in H; try discriminate.
  assert (GE : fst l <> -1). { intros E. unfold bvar in BV. rewrite E in BV. discriminate. }
  inversion N as [|? ? N1 N2]; subst. cbn [map In] in I1, I2.
  assert (X1 : fst (fst b1) = -1 \/ ~ In (fst (fst b1)) (map fst c)) by (destruct I1; auto).
  assert (X2 : fst (fst b2) = -1 \/ ~ In (fst (fst b2)) (map fst c)) by (destruct I2; auto).
  set (nx := nidx (bfind_node (bnodes s (fst l)) (snd l))) in *.
  revert H. destruct (snd b1 <? nx); [|destruct (snd b2 <? nx)]; cbn [bind]; apply IH; auto; cbn [fst].
  - intros E. destruct I1 as [I1|I1]; [congruence|]. destruct I1. left; auto.
  - intros E. destruct I1 as [I1|I1]; [congruence|]. destruct I1. left; auto.
Qed.

Lemma learn_sim ex c s x t ls a b : rel ((t, mkObj ls a b) :: ex) s x -> (fst a = fst b -> fst b = -1) ->
  sim (fun s' x' => rel ex s' x' /\ mo x' t = Some (mkObj ls a b)) (blearn c s ls a b) (m_learn c x t).
Proof.
  intros (E & (A & S) & O & F) D. unfold blearn, m_learn.
  set (n := length (bcl s)).
  set (s1 := set_bw1 (set_bw0 (set_bcl s (bcl s ++ [ls])) (updn (bw0 (set_bcl s (bcl s ++ [ls]))) n a)) (updn (bw1 (set_bw0 (set_bcl s (bcl s ++ [ls])) (updn (bw0 (set_bcl s (bcl s ++ [ls]))) n a))) n b)).
  set (x1 := set_mcl x (mcl x ++ [t])).
  assert (R1 : rel ex s1 x1).
  { split; [exact E|]. split; [exists A; exact S|]. split.
    - eapply push_obj; [exact O| | |]; cbn [s1 bw0 bw1 set_bw0 set_bw1 set_bcl].
      + apply updn_same. + apply updn_same.
      + intros m L. rewrite !updn_other by (unfold n; lia). auto.
    - destruct F as (F1 & F2). split; [exact F1|]. intros v m I. cbn [s1 brec bcl bw0 bw1 set_bw0 set_bw1 set_bcl] in *. destruct (F2 v m I) as (B & W).
      rewrite app_length. rewrite !updn_other by (unfold n; lia). split; [lia|auto]. }
  assert (MO : mo x1 t = Some (mkObj ls a b)). { destruct O as (_ & _ & _ & O4 & _). apply O4. left; auto. }
  replace (pred (length (mcl x1))) with n.
  2:{ cbn [x1 set_mcl mcl]. rewrite app_length. cbn. destruct O as (_ & L & _). unfold n. lia. }
  unfold oload. rewrite MO. cbn [bind o_w0 o_w1 o_atoms].
  assert (FRESH : forall v, ~ In n (brec s v)). { intros v I. apply F in I. unfold n in I. lia. }
  assert (LT : (n < length (bcl s1))%nat). { cbn [s1 bcl set_bw0 set_bw1 set_bcl]. rewrite app_length. cbn. unfold n. lia. }
  assert (W0 : bw0 s1 n = a) by (cbn; apply updn_same). assert (W1 : bw1 s1 n = b) by (cbn; apply updn_same).
  eapply sim_bind; [apply (add_sim ex); [exact R1|apply FRESH|exact LT|left; rewrite W0; auto]|].
  intros s2 x2 _ (R2 & E2 & C2 & M2).
  eapply (sim_bind (fun s' x' => rel ex s' x' /\ mo x' = mo x1)).
  { destruct (Nat.ltb 1 (length ls)); [|apply sim_ok; split; auto].
    destruct (bvar_cases s2 (fst b)) as [BV|BV].
    2:{ unfold badd_record, m_add. rewrite (proj1 R2). change (bvar (bare s2) (fst b)) with (bvar s2 (fst b)). rewrite BV. reflexivity. }
    eapply sim_weak; [|apply (add_sim ex)]; auto.
    - intros s' x' (H1 & _ & _ & H2). split; auto. congruence.
    - rewrite E2. cbn [set_brec brec]. destruct (Z.eq_dec (fst b) (fst a)) as [EQ|N]; [|rewrite upd1_other by auto; apply FRESH].
      rewrite D in BV by auto. discriminate.
    - rewrite E2. exact LT.
    - right. rewrite E2. cbn [set_brec bw1]. rewrite W1. auto. }
  intros s3 x3 _ (R3 & M3). rewrite (proj1 R3). destruct (bumps_bare ls s3) as (EB & UN). rewrite EB.
  destruct (foldM bump_lit ls s3) as [s4|u|] eqn:E4; cbn [bind]; [|destruct u; reflexivity|reflexivity].
  destruct (blen c); [|reflexivity]. destruct (UN s4 eq_refl) as (U1 & U2 & U3 & U4).
  apply sim_ok. split; [|cbn [set_ms mo]; congruence].
  apply (rel_set ex s3 x3 (set_bsc s4 (fun v j => f64_div (bsc s4 v j) f64_two))); auto.
Qed.

Lemma analyze_sim leak c : forall fuel s x t ls a b (fresh : bool),
  rel (if fresh then (t, mkObj ls a b) :: leak else leak) s x -> mo x t = Some (mkObj ls a b) ->
  (fresh = true -> fst a = fst b -> fst b = -1) ->
  sim (fun q y => rel leak (fst q) (fst y) /\ exists o, mo (fst y) (snd y) = Some o /\ o_atoms o = fst (snd q) /\ o_w1 o = snd (snd q))
    (banalyze fuel c s ls a b fresh) (m_analyze fuel c x t fresh).
Proof.
  induction fuel as [|f IH]; intros s x t ls a b fresh R M D; [reflexivity|]. cbn [banalyze m_analyze].
  unfold oload. rewrite M. cbn [bind o_atoms o_w0 o_w1]. rewrite (proj1 R). apply sim_same; [reflexivity|]. intros p _.
  destruct p.
  { destruct fresh; [|exact I]. eapply sim_bind; [apply (learn_sim leak); auto|]. intros s' x' _ (R' & M'). apply sim_ok. cbn [fst snd].
    split; auto. eexists. split; [exact M'|]. auto. }
  apply sim_same; [reflexivity|]. intros nd _. destruct (nreason nd) as [n|]; [|reflexivity].
  pose proof R as (E & (A & S) & O & F).
  eapply sim_bind; [eapply mget_sim; exact O|]. intros r [ar orr] _ (_ & _ & EO). cbn [snd] in EO. subst orr. cbn [snd o_atoms].
  set (res := bresolve ls a r). cbn [onew].
  pose proof (onew_obj _ _ _ _ _ o_empty O) as O1. set (bb := mbrk x) in *.
  destruct (ostore_ex _ _ _ _ _ _ _ (mkObj res bnolit bnolit) O1) as (E2 & O2). rewrite E2. cbn [bind].
  match type of E2 with _ = Ok ?X => set (x2 := X) in * end. change (ms x2) with (ms x). rewrite E.
  apply sim_same; [reflexivity|]. intros w EW.
  destruct (ostore_ex _ _ _ _ _ _ _ (mkObj res (fst w) (snd w)) O2) as (E3 & O3). rewrite E3. cbn [bind].
  match type of E3 with _ = Ok ?X => set (x3 := X) in * end.
  assert (DW : fst (fst w) = fst (snd w) -> fst (snd w) = -1).
  { unfold bassign_watched in EW. destruct (foldM _ _ _) as [q| |] eqn:EQ; cbn [bind] in EW; try discriminate. injection EW as <-. cbn [fst snd].
    revert EQ. apply watched_differ; cbn; auto. apply resolve_nodup. }
  destruct fresh.
  - destruct (ofree_ex _ _ _ _ _ _ _ _ _ O3) as (E4 & O4). rewrite E4. cbn [bind]. apply IH; auto.
    + split; [exact E|]. split; [exists A; exact S|]. split; [exact O4|exact F].
    + destruct O4 as (_ & _ & _ & O4 & _). apply O4. left; auto.
  - cbn [bind]. apply IH; auto.
    + split; [exact E|]. split; [exists A; exact S|]. split; [exact O3|exact F].
    + destruct O3 as (_ & _ & _ & O4 & _). apply O4. left; auto.
Qed.

(** ** The search *)

Lemma undo_bare s : bundo (bare s) = bare (bundo s) /\ unmoved s (bundo s).
Proof.
  unfold bundo. change (bnv (bare s)) with (bnv s). generalize (zrange 1 (bnv s)). intro vs. revert s.
  induction vs as [|v vs IH]; intro s; cbn [fold_left]; [unfold unmoved; auto|].
  assert (X : bundo_var (bare s) v = bare (bundo_var s v) /\ unmoved s (bundo_var s v)).
  { unfold bundo_var. cbn [bare blevel bnodes bcur baix]. destruct (bpop _ _ _ _) as ((ns & cur) & aix). unfold unmoved. auto. }
  destruct X as (-> & U). destruct (IH (bundo_var s v)) as (-> & U2). split; auto.
  unfold unmoved in *. intuition congruence.
Qed.

Lemma conflict_sim leak fuel c r rc s x : rel leak s x ->
  sim (fun q y => rel leak (fst q) (fst y) /\ snd q = snd y) (bconflict fuel c r rc s) (m_conflict fuel c r rc x).
Proof.
  intros R. pose proof R as (E & _ & O & _). unfold bconflict, m_conflict. rewrite E. cbn [bare bcc].
  unfold bget. destruct (nth_error (bcl s) (bcc s)) as [ls|] eqn:EC.
  2:{ destruct (mget_none _ _ _ _ _ _ O EC) as (-> & _). reflexivity. }
  destruct (get_obj _ _ _ _ _ _ _ O EC) as (t & ET & M). unfold mptr. rewrite ET. cbn [bind].
  eapply sim_bind; [apply (analyze_sim leak c fuel s x t ls _ _ false); auto; discriminate|].
  intros (s1 & ls1 & b1) (x1 & t1) _ (R1 & o & M1 & EA & EB). cbn [fst snd] in *.
  unfold oload. rewrite M1. cbn [bind]. rewrite EA, EB, (proj1 R1).
  apply sim_same; [reflexivity|]. intros lev _.
  set (s2 := set_bconf (set_bback (set_blevel s1 lev) (bback (set_blevel s1 lev) + 1)) false).
  change (set_bconf (set_bback (set_blevel (bare s1) lev) (bback (set_blevel (bare s1) lev) + 1)) false) with (bare s2).
  destruct (undo_bare s2) as (-> & U). cbn [bare bback].
  assert (LEN : length (mcl x1) = length (bcl s2)) by (destruct R1 as (_ & _ & (_ & L & _) & _); exact L). rewrite LEN.
  assert (R2 : forall s', unmoved s2 s' -> rel leak s' (set_ms x1 (bare s'))).
  { intros s' (U1 & U2 & U3 & U4). apply (rel_set leak s1); auto. }
  cbv zeta. destruct (bback s2 =? rc); apply sim_ok; cbn [fst snd]; (split; [|reflexivity]).
  - match goal with |- rel leak ?s' _ => apply (R2 s') end. exact U.
  - match goal with |- rel leak ?s' _ => apply (R2 s') end. exact U.
Qed.

Definition rsum (leak : list (nat * cobj)) (q : verdict * bst + Z * bst) (y : verdict * mst + Z * mst) : Prop :=
  match q, y with
  | inl (v, s), inl (v', x) => v = v' /\ rel leak s x
  | inr (z, s), inr (z', x) => z = z' /\ rel leak s x
  | _, _ => False
  end.

Lemma iter_sim leak fuel c clk r rc s x : rel leak s x -> sim (rsum leak) (biter fuel c clk r rc s) (m_iter fuel c clk r rc x).
Proof.
  intros R. unfold biter, m_iter. rewrite (proj1 R). cbn [bare btick].
  set (s1 := set_btick s (S (btick s))). change (set_btick (bare s) (S (btick s))) with (bare s1).
  assert (R1 : rel leak s1 (set_ms x (bare s1))) by (eapply rel_set; eauto). set (x1 := set_ms x (bare s1)) in *.
  destruct (clk (btick s)); [apply sim_ok; split; auto|]. cbn [x1 set_ms ms]. change (bconf (bare s1)) with (bconf s1). change (blevel (bare s1)) with (blevel s1).
  destruct (bconf s1 && (blevel s1 =? 0)); [apply sim_ok; split; auto|].
  eapply (sim_bind (fun q y => rel leak (fst q) (fst y) /\ snd q = snd y)).
  { destruct (bconf s1); [apply conflict_sim; auto|apply sim_ok; auto]. }
  intros (s2 & rc2) (x2 & rc2') _ (R2 & ER). cbn [fst snd] in R2, ER. subst rc2'.
  eapply (sim_bind (rel leak)).
  { rewrite (proj1 R2). change (bulist (bare s2)) with (bulist s2). destruct (bulist s2); [apply sim_ok; auto|]. apply prop_sim; auto. }
  intros s3 x3 _ R3. rewrite (proj1 R3). change (bconf (bare s3)) with (bconf s3). destruct (bconf s3); [apply sim_ok; split; auto|].
  eapply sim_bind; [apply choose_sim; eauto|]. intros (s4 & l) (x4 & l') _ (R4 & EL). cbn [fst snd] in *. subst l'.
  destruct (fst l =? -1); [apply sim_ok; split; auto|]. rewrite (proj1 R4).
  eapply sim_bind; [|intros s5 x5 _ R5; apply sim_ok; split; [reflexivity|exact R5]].
  match goal with |- sim _ (breduce ?s' _) _ => set (s5 := s') end. apply (reduce_sim leak s5 (set_ms x4 (bare s5))).
  apply (rel_set leak s4); auto.
Qed.

Lemma loop_sim leak c clk r : forall fuel rc s x, rel leak s x ->
  sim (fun q y => fst q = fst y /\ rel leak (snd q) (snd y)) (bloop fuel c clk r rc s) (m_loop fuel c clk r rc x).
Proof.
  induction fuel as [|f IH]; intros rc s x R; [reflexivity|]. cbn [bloop m_loop].
  eapply sim_bind; [apply iter_sim; eauto|]. intros q y _ H. unfold rsum in H.
  destruct q as [(v & s1)|(z & s1)], y as [(v' & x1)|(z' & x1)]; try contradiction; destruct H as (<- & R1).
  - apply sim_ok. auto.
  - apply IH. auto.
Qed.

(** ** Building *)

Lemma read_nodup s : forall ls acc c, NoDup (map fst acc) -> foldM (read_atom s) ls acc = Ok c -> NoDup (map fst c).
Proof.
  induction ls as [|l ls IH]; intros acc c N H; cbn [foldM] in H; [injection H as <-; auto|].
  unfold read_atom at 1 in H. destruct (bit_lit s l); cbn [bind] in H; try discriminate. eapply IH; [|exact H]. apply add_atom_nodup; auto.
Qed.

Definition leaks (l : list nat) : list (nat * cobj) := map (fun a => (a, o_empty)) l.

(** While the file is read. *)
Definition reading (s : bst) (x : mst) : Prop :=
  (exists l, rel (leaks l) s x /\ Z.of_nat (length l) = bnv s) /\
  forall n, (length (bcl s) <= n)%nat -> bw0 s n = bnolit /\ bw1 s n = bnolit.

Lemma domain_sim s x d : reading s x -> sim reading (badd_domain s d) (m_add_domain x d).
Proof.
  intros ((l & R & L) & W). unfold badd_domain, m_add_domain. cbn [onew ms]. rewrite (proj1 R). unfold badd_domain.
  destruct (d <? 0); [reflexivity|]. cbn [bind]. apply sim_ok. destruct R as (E & H & O & F). split; [|exact W].
  exists (mbrk x :: l). split; [|cbn [length set_bcur set_bdom set_bnv bnv]; lia].
  split; [reflexivity|]. split; [exact H|]. split; [|exact F]. apply (onew_obj _ _ _ _ _ o_empty O).
Qed.

Lemma clause_sim s x ls : reading s x -> sim reading (badd_clause s ls) (m_add_clause x ls).
Proof.
  intros ((l & R & L) & W). unfold badd_clause, m_add_clause, onew.
  pose proof R as (E & (A & S) & O & F). pose proof (onew_obj _ _ _ _ _ o_empty O) as O1.
  match type of O1 with objects ?X _ _ _ _ => set (x1 := X) in * end. set (t := mbrk x) in *. change (ms x1) with (ms x). rewrite E.
  apply sim_same; [reflexivity|]. intros c EC.
  apply read_nodup in EC; [|constructor].
  destruct (ostore_ex _ _ _ _ _ _ _ (mkObj c bnolit bnolit) O1) as (E2 & O2). rewrite E2. cbn [bind].
  match type of E2 with _ = Ok ?X => set (x2 := X) in * end. clear E2 O1.
  set (n := length (bcl s)). change (mcl x2) with (mcl x). replace (length (mcl x)) with n by (destruct O as (_ & K & _); unfold n; lia).
  set (s1 := set_bcl s (bcl s ++ [c])). set (x3 := set_mcl x2 (mcl x ++ [t])).
  assert (R3 : rel (leaks l) s1 x3).
  { split; [exact E|]. split; [exists A; exact S|]. split.
    - apply (push_obj x2 (bcl s) (bw0 s) (bw1 s) (leaks l) t c bnolit bnolit); auto; apply W; auto.
    - destruct F as (F1 & F2). split; [exact F1|]. intros v m I. cbn [s1 set_bcl bcl]. rewrite app_length. destruct (F2 v m I). split; [lia|auto]. }
  change (ms x3) with (ms x). rewrite E. change (bare s) with (bare s1).
  destruct (bumps_bare c s1) as (EB & UN). rewrite EB.
  destruct (foldM bump_lit c s1) as [s2|u|] eqn:EF; cbn [bind]; [|destruct u; reflexivity|reflexivity].
  destruct (UN s2 eq_refl) as (U1 & U2 & U3 & U4).
  assert (NV : bnv s2 = bnv s) by (apply (BitSafe.bumps_same (fun x => x) 0) in EF; apply EF).
  set (s3 := if Nat.eqb (length c) 1 then set_bulist s2 (bulist s2 ++ [n]) else s2).
  assert (SB : (if Nat.eqb (length c) 1 then set_bulist (bare s2) (bulist (bare s2) ++ [n]) else bare s2) = bare s3) by (unfold s3; destruct (Nat.eqb (length c) 1); reflexivity).
  rewrite SB. assert (Q : brec s3 = brec s /\ bcl s3 = bcl s ++ [c] /\ bw0 s3 = bw0 s /\ bw1 s3 = bw1 s /\ bnv s3 = bnv s).
  { unfold s3. destruct (Nat.eqb (length c) 1); cbn [set_bulist brec bcl bw0 bw1 bnv]; rewrite U1, U2, U3, U4; auto. }
  destruct Q as (Q1 & Q2 & Q3 & Q4 & Q5).
  assert (R4 : rel (leaks l) s3 (set_ms x3 (bare s3))) by (apply (rel_set (leaks l) s1); auto). clear SB.
  set (x4 := set_ms x3 (bare s3)) in *. clear EB UN EF R3. clearbody s3.
  assert (NE : nth_error (bcl s3) n = Some c). { rewrite Q2, nth_error_app2 by (unfold n; lia). unfold n. rewrite Nat.sub_diag. reflexivity. }
  assert (NM : nth_error (mcl x4) n = Some t).
  { cbn. rewrite nth_error_app2; destruct O as (_ & K & _); rewrite K; unfold n; [rewrite Nat.sub_diag; reflexivity|lia]. }
  assert (FRESH : forall v, ~ In n (brec s v)). { intros v I. apply F in I. unfold n in I. lia. }
  destruct c as [|w c']; [reflexivity|].
  pose proof R4 as (E4 & H4 & O4 & F4).
  assert (M4 : mo x4 t = Some (mkObj (w :: c') (bw0 s3 n) (bw1 s3 n))). { destruct O4 as (_ & _ & O4 & _). eauto. }
  unfold oload. rewrite M4. cbn [bind o_atoms o_w1].
  destruct (ostore_obj _ x4 (bcl s3) (bw0 s3) (bw1 s3) n (w :: c') t w (bw1 s3 n) (updn (bw0 s3) n w) (bw1 s3) O4 NE NM) as (m5 & E5 & O5); auto.
  { apply updn_same. } { intros k N. rewrite updn_other; auto. }
  rewrite E5. cbn [bind]. set (s5 := set_bw0 s3 (updn (bw0 s3) n w)). set (x5 := mkM (ms x4) (mh x4) m5 (mbrk x4) (mcl x4)) in *.
  assert (R5 : rel (leaks l) s5 x5).
  { split; [exact E4|]. split; [exact H4|]. split; [exact O5|]. destruct F4 as (G1 & G2). split; [exact G1|]. intros v k I. destruct (G2 v k I) as (B & D). split; auto.
    cbn [s5 set_bw0 bw0 bw1]. rewrite updn_other; auto. intros ->. cbn [s5 set_bw0 brec] in I. rewrite Q1 in I. exact (FRESH v I). }
  assert (LT : (n < length (bcl s5))%nat). { change (bcl s5) with (bcl s3). apply nth_error_Some. congruence. }
  assert (LEN : forall k, (length (bcl s ++ [w :: c']) <= k)%nat -> (length (bcl s) <= k)%nat /\ k <> n). { intros k B. rewrite app_length in B. cbn in B. unfold n. lia. }
  eapply sim_bind; [apply (add_sim (leaks l)); [exact R5|change (brec s5) with (brec s3); rewrite Q1; apply FRESH|exact LT|left; cbn; rewrite updn_same; auto]|].
  intros s6 x6 _ (R6 & E6 & C6 & M6). destruct c' as [|w2 c'].
  { apply sim_ok. split.
    - exists l. split; auto. rewrite E6. cbn [set_brec bnv s5 set_bw0]. congruence.
    - intros k B. rewrite E6 in B |- *. cbn [set_brec bcl bw0 bw1 s5 set_bw0] in *. rewrite Q2 in B. apply LEN in B. rewrite updn_other by tauto. rewrite Q3, Q4. apply W. tauto. }
  pose proof R6 as (E6' & H6 & O6 & F6).
  assert (NE6 : nth_error (bcl s6) n = Some (w :: w2 :: c')) by (rewrite E6; exact NE).
  assert (NM6 : nth_error (mcl x6) n = Some t) by (rewrite C6; exact NM).
  assert (MX : mo x6 t = Some (mkObj (w :: w2 :: c') (bw0 s6 n) (bw1 s6 n))). { destruct O6 as (_ & _ & O6 & _). eauto. }
  rewrite MX. cbn [bind o_atoms o_w0].
  destruct (ostore_obj _ x6 (bcl s6) (bw0 s6) (bw1 s6) n (w :: w2 :: c') t (bw0 s6 n) w2 (bw0 s6) (updn (bw1 s6) n w2) O6 NE6 NM6) as (m7 & E7 & O7); auto.
  { apply updn_same. } { intros k N. rewrite updn_other; auto. }
  rewrite E7. cbn [bind]. set (s7 := set_bw1 s6 (updn (bw1 s6) n w2)). set (x7 := mkM (ms x6) (mh x6) m7 (mbrk x6) (mcl x6)) in *.
  assert (B6 : bw0 s6 n = w). { rewrite E6. cbn. apply updn_same. }
  assert (REC : forall v, In n (brec s6 v) -> v = fst w).
  { intros v I. rewrite E6 in I. cbn [set_brec brec] in I. destruct (Z.eqb_spec v (fst w)) as [->|N]; auto. rewrite upd1_other in I by auto.
    change (brec s5) with (brec s3) in I. rewrite Q1 in I. destruct (FRESH v I). }
  assert (R7 : rel (leaks l) s7 x7).
  { split; [exact E6'|]. split; [exact H6|]. split; [exact O7|]. destruct F6 as (G1 & G2). split; [exact G1|]. intros v k I. cbn [s7 set_bw1 brec] in I. destruct (G2 v k I) as (B & D). split; auto.
    cbn [s7 set_bw1 bw0 bw1]. destruct (Nat.eq_dec k n) as [->|N]; [|rewrite updn_other; auto]. left. rewrite B6. symmetry. apply REC. auto. }
  eapply sim_weak; [|apply (add_sim (leaks l) s7 x7)]; auto.
  - intros s8 x8 (R8 & E8 & _). split.
    + exists l. split; auto. rewrite E8. cbn [set_brec bnv s7 set_bw1]. rewrite E6. cbn [set_brec bnv s5 set_bw0]. congruence.
    + intros k B. rewrite E8 in B |- *. cbn [set_brec bcl bw0 bw1 s7 set_bw1] in *. rewrite E6 in B |- *. cbn [set_brec bcl bw0 bw1 s5 set_bw0] in *.
      rewrite Q2 in B. apply LEN in B. rewrite !updn_other by tauto. rewrite Q3, Q4. apply W. tauto.
  - intro I. cbn [s7 set_bw1 brec] in I. apply REC in I. cbn [map] in EC. inversion EC; subst. apply H1. left. auto.
  - cbn [s7 set_bw1 bcl]. apply nth_error_Some. congruence.
  - right. cbn [s7 set_bw1 bw1]. rewrite updn_same. auto.
Qed.

Lemma build_sim is : sim reading (bbuild is) (m_build is).
Proof.
  unfold bbuild, m_build.
  assert (G : forall is s x, reading s x -> sim reading (foldM badd_item is s) (foldM m_add_item is x)).
  { clear is. induction is as [|i is IH]; intros s x R; cbn [foldM]; [apply sim_ok; auto|].
    eapply sim_bind; [|intros s' x' _ R'; apply IH; exact R'].
    destruct i; [apply domain_sim|apply clause_sim]; auto. }
  apply G. split; [|auto]. exists []. split; [|reflexivity]. split; [reflexivity|]. split; [|split].
  - exists (fun _ => []). split; [|split; [|split]]; cbn.
    + intro v. auto. + intro v. constructor. + intros v v' p []. + intros p H. congruence.
  - split; [constructor|]. split; [reflexivity|]. cbn. split; [|split].
    + intros [|n] a c H; discriminate. + intros a o []. + intros a H. congruence.
  - split; cbn; [constructor|]. intros v n [].
Qed.

(** ** Runs *)

Lemma inn_m1 i m : inn i m -> inn i (-1).
Proof. unfold inn. destruct (Z.ltb_spec i 0); [rewrite !Z.testbit_neg_r by lia; auto|]. intros _. apply Z.bits_m1. auto. Qed.

Theorem solve_sim fuel c clk r p :
  sim (fun q y => fst q = fst y /\ in_memory (snd q) (snd y) (bnv (snd q))) (bsolve fuel c clk r p) (m_solve fuel c clk r p).
Proof.
  unfold bsolve, bsolve_state, m_solve. eapply sim_bind; [apply build_sim|]. intros s x _ ((l & R & L) & _).
  eapply sim_bind; [apply (loop_sim (leaks l)); exact R|]. intros (v & s1) (v' & x1) EL (EV & R1). cbn [fst snd] in *. subst v'.
  assert (NV : bnv s1 = bnv s). { eapply (k_nv [] (fun _ => -1)), (loop_kept [] (fun _ => -1) (bnv s)); [exact EL|]. constructor; auto; [exists (bcl s); auto| |]; intros; eapply inn_m1; eauto. }
  assert (MEM : in_memory s1 x1 (bnv s1)).
  { destruct R1 as (_ & H & O & _). split; auto. exists l. split; auto. congruence. }
  assert (LEN : length (mcl x1) = length (bcl s1)). { destruct R1 as (_ & _ & (_ & K & _) & _). auto. }
  rewrite (proj1 R1), LEN. cbn [bare bdec bunits bback bnv brest]. rewrite <- (verify_sim (leaks l) s1 x1 R1).
  destruct v; try (apply sim_ok; cbn [fst snd]; auto).
  apply sim_same; auto. intros b _. apply sim_ok. cbn [fst snd]. split; auto.
Qed.
