(** * The second solver: the specification of conflict analysis in terms of the trail *)

From Verif Require Import Spec Outcome State ModelBuild ModelBit Base BitSpec BitTrail BitInv BitResolve BitStepSpec.

(** ** Uniqueness *)

Lemma split_first {A} (P : A -> Prop) l1 x r1 l2 y r2 : l1 ++ x :: r1 = l2 ++ y :: r2 ->
  P x -> P y -> (forall z, In z l1 -> ~ P z) -> (forall z, In z l2 -> ~ P z) -> x = y.
Proof.
  revert l2. induction l1 as [|a l1 IH]; intros l2 E Px Py H1 H2; destruct l2 as [|b l2]; cbn in E.
  - congruence.
  - injection E as <- _. exfalso. apply (H2 x); auto. left. auto.
  - injection E as -> _. exfalso. apply (H1 y); auto. left. auto.
  - injection E as -> E. apply (IH l2); auto; intros z Hz; [apply H1|apply H2]; right; auto.
Qed.

Lemma falsified_unique s l x y : falsified_by s l x -> falsified_by s l y -> x = y.
Proof.
  intros (l1 & r1 & E1 & P1 & N1) (l2 & r2 & E2 & P2 & N2).
  apply (split_first (fun z => exists d, has_value (nvals z) d /\ has_value (snd l) d) l1 x r1 l2 y r2); auto.
  - congruence.
  - intros z Hz (d & H1 & H2). apply (N1 z d); auto.
  - intros z Hz (d & H1 & H2). apply (N2 z d); auto.
Qed.

Lemma last_unique s c l m : last_false s c l -> last_false s c m -> l = m.
Proof.
  intros (Hl & x & Fx & Mx) (Hm & y & Fy & My). destruct (blit_eq_dec l m) as [|N]; auto. exfalso.
  destruct (Mx m Hm ltac:(congruence)) as (y' & Fy' & L1). destruct (My l Hl ltac:(congruence)) as (x' & Fx' & L2).
  rewrite (falsified_unique _ _ _ _ Fy' Fy) in L1. rewrite (falsified_unique _ _ _ _ Fx' Fx) in L2. lia.
Qed.

Lemma because_unique s l r1 r2 : set_because s l r1 -> set_because s l r2 -> r1 = r2.
Proof.
  intros (x & n & Fx & Rx & Nx) (y & m & Fy & Ry & Ny). rewrite (falsified_unique _ _ _ _ Fx Fy) in Rx. congruence.
Qed.

Lemma clause_ext (c d : bclause) : map fst c = map fst d -> NoDup (map fst c) ->
  (forall v m n, In (v, m) c -> In (v, n) d -> forall e, has_value m e <-> has_value n e) -> c = d.
Proof.
  revert d. induction c as [|(v, m) c IH]; intros [|(u, n) d] E ND H; cbn [map fst] in E; try discriminate; auto.
  injection E as -> E. cbn [map fst] in ND. inversion ND as [|? ? N1 N2]; subst. f_equal.
  - f_equal. apply inn_ext. intro i. apply (H u m n); left; auto.
  - apply IH; auto. intros w m1 n1 H1 H2. apply (H w m1 n1); right; auto.
Qed.

Lemma resolvent_unique c l r d1 d2 : set_resolvent c l r d1 -> set_resolvent c l r d2 -> d1 = d2.
Proof.
  intros (N1 & (k1 & E1 & K1) & V1) (N2 & (k2 & E2 & K2) & V2). apply clause_ext; auto.
  - rewrite E1, E2. f_equal. apply filter_ext_in. intros v Hv. specialize (K1 v Hv). specialize (K2 v Hv).
    destruct (k1 v), (k2 v); intuition congruence.
  - intros v m n Hm Hn e. rewrite (V1 v m e Hm), (V2 v n e Hn). tauto.
Qed.

Theorem learns_unique s c e1 : set_learns s c e1 -> forall e2, set_learns s c e2 -> e1 = e2.
Proof.
  induction 1 as [c A|c l r d e NA L B R _ IH]; intros e2 H; inversion H as [? A2|? l2 r2 d2 ? NA2 L2 B2 R2 H2]; subst; auto.
  - contradiction.
  - contradiction.
  - pose proof (last_unique _ _ _ _ L L2). subst l2. pose proof (because_unique _ _ _ _ B B2). subst r2.
    pose proof (resolvent_unique _ _ _ _ _ R R2). subst d2. auto.
Qed.

(** ** The resolvent *)

Lemma add_atom_fst c l : map fst (add_atom c l) = map fst c ++ (if in_dec Z.eq_dec (fst l) (map fst c) then [] else [fst l]).
Proof.
  induction c as [|m c IH]; cbn [add_atom map]; [reflexivity|].
  destruct (Z.eqb_spec (fst m) (fst l)) as [E|N]; cbn [map fst].
  - destruct (in_dec Z.eq_dec (fst l) (fst m :: map fst c)) as [|X]; [rewrite app_nil_r; auto|]. exfalso. apply X. left. auto.
  - rewrite IH. cbn [app]. f_equal. f_equal.
    destruct (in_dec Z.eq_dec (fst l) (map fst c)), (in_dec Z.eq_dec (fst l) (fst m :: map fst c)) as [X|X]; auto.
    + exfalso. apply X. right. auto.
    + destruct X; [congruence|tauto].
Qed.

Lemma allows_add c l v d : set_allows (add_atom c l) v d = set_allows c v d || ((fst l =? v) && Z.testbit (snd l) d).
Proof.
  induction c as [|m c IH]; cbn [add_atom].
  - unfold set_allows. cbn. rewrite orb_false_r. auto.
  - destruct (Z.eqb_spec (fst m) (fst l)) as [E|N].
    + unfold set_allows. cbn [existsb fst snd]. rewrite E, Z.lor_spec.
      match goal with |- context [existsb ?f c] => generalize (existsb f c) end.
      intro b. destruct (fst l =? v), (Z.testbit (snd m) d), (Z.testbit (snd l) d), b; reflexivity.
    + unfold set_allows in *. cbn [existsb]. rewrite IH. apply orb_assoc.
Qed.

Lemma allows_adds ls : forall c v d, set_allows (fold_left add_atom ls c) v d = set_allows c v d || set_allows ls v d.
Proof.
  induction ls as [|l ls IH]; intros c v d; cbn [fold_left].
  - unfold set_allows at 3. cbn. rewrite orb_false_r. auto.
  - rewrite IH, allows_add, <- orb_assoc. reflexivity.
Qed.

Lemma adds_same ls : forall c, NoDup (map fst (c ++ ls)) -> fold_left add_atom ls c = c ++ ls.
Proof.
  induction ls as [|l ls IH]; intros c H; cbn [fold_left]; [rewrite app_nil_r; auto|].
  assert (E : add_atom c l = c ++ [l]).
  { assert (N : ~ In (fst l) (map fst c)).
    { rewrite map_app in H. cbn [map] in H. apply NoDup_remove_2 in H. intro Hi. apply H. apply in_or_app. auto. }
    clear - N. induction c as [|m c IH]; auto. cbn [add_atom map In app] in *.
    destruct (Z.eqb_spec (fst m) (fst l)); [tauto|]. rewrite IH; tauto. }
  rewrite E, IH; rewrite <- app_assoc; auto.
Qed.

Lemma filter_nodup_fst f (c : bclause) : NoDup (map fst c) -> NoDup (map fst (filter f c)).
Proof.
  induction c as [|l c IH]; cbn [map filter]; auto. intro H. inversion H as [|? ? H1 H2]; subst.
  destruct (f l); cbn [map]; auto. constructor; auto. intro Hi. apply H1. apply in_map_iff in Hi.
  destruct Hi as (x & <- & Hx). apply filter_In in Hx. apply in_map. tauto.
Qed.

Lemma filter_fst (g : Z -> bool) (c : bclause) : map fst (filter (fun x => g (fst x)) c) = filter g (map fst c).
Proof. induction c as [|l c IH]; auto. cbn [filter map]. destruct (g (fst l)); cbn [map]; rewrite IH; auto. Qed.

Lemma has_allowed b v m d : NoDup (map fst b) -> In (v, m) b -> (has_value m d <-> set_allows b v d = true).
Proof.
  intros ND Hi. unfold has_value, set_allows. rewrite existsb_exists. split.
  - intro H. exists (v, m). split; auto. cbn. rewrite Z.eqb_refl. auto.
  - intros (l & Hl & H). apply andb_true_iff in H. destruct H as (H1 & H2). apply Z.eqb_eq in H1.
    assert (l = (v, m)) by (apply (nodup_fst_eq b); auto). subst l. auto.
Qed.

Lemma allows_in c v d : set_allows c v d = true <-> exists m, In (v, m) c /\ has_value m d.
Proof.
  unfold set_allows. rewrite existsb_exists. split.
  - intros ((u, m) & Hl & H). apply andb_true_iff in H. destruct H as (H1 & H2). apply Z.eqb_eq in H1. cbn in H1. subst u.
    exists m. auto.
  - intros (m & Hi & H). exists (v, m). split; auto. cbn. rewrite Z.eqb_refl. exact H.
Qed.

Lemma resolve_resolvent c l r : NoDup (map fst c) -> NoDup (map fst r) -> set_resolvent c l r (bresolve c l r).
Proof.
  intros NC NR. split; [apply resolve_nodup|].
  set (c0 := filter (fun x => negb (fst x =? fst l)) c).
  assert (EB : bresolve c l r = fold_left (bresolve_step l) r c0).
  { unfold bresolve. fold c0. rewrite adds_same; auto. cbn [app]. apply filter_nodup_fst. auto. }
  assert (F0 : map fst c0 = filter (fun v => negb (v =? fst l)) (map fst c)).
  { unfold c0. apply (filter_fst (fun v => negb (v =? fst l))). }
  set (keep := fun v => if v =? fst l then negb (Z.land (snd l) (match find (fun x => fst x =? v) r with Some x => snd x | None => 0 end) =? 0)
                        else negb (if in_dec Z.eq_dec v (map fst c) then true else false)).
  assert (FIND : forall x, In x r -> find (fun y => fst y =? fst x) r = Some x).
  { intros x Hx. destruct (find (fun y => fst y =? fst x) r) as [y|] eqn:E.
    - apply find_some in E. destruct E as (Hy & E). apply Z.eqb_eq in E. f_equal. apply (nodup_fst_eq r); auto.
    - exfalso. pose proof (find_none _ _ E x Hx) as N. cbn in N. rewrite Z.eqb_refl in N. discriminate. }
  split.
  - exists keep. split.
    + rewrite EB, <- F0.
      assert (G : forall r1 r2 acc, r = r1 ++ r2 -> map fst acc = map fst c0 ++ filter keep (map fst r1) ->
        map fst (fold_left (bresolve_step l) r2 acc) = map fst c0 ++ filter keep (map fst r)).
      { intros r1 r2. revert r1. induction r2 as [|x r2 IH]; intros r1 acc Er Ea; cbn [fold_left].
        - rewrite Ea, Er, app_nil_r. auto.
        - apply (IH (r1 ++ [x])); [rewrite <- app_assoc; auto|].
          assert (Hx : In x r) by (rewrite Er; apply in_or_app; right; left; auto).
          assert (Nx : ~ In (fst x) (map fst r1)).
          { rewrite Er, map_app in NR. cbn [map] in NR. apply NoDup_remove_2 in NR. intro Hi. apply NR. apply in_or_app. auto. }
          rewrite map_app, filter_app, app_assoc, <- Ea. cbn [map filter].
          unfold bresolve_step. unfold keep at 1. rewrite (FIND x Hx).
          destruct (Z.eqb_spec (fst x) (fst l)) as [El|Nl].
          + destruct (Z.eqb_spec (Z.land (snd l) (snd x)) 0); cbn [negb]; [rewrite app_nil_r; auto|].
            rewrite add_atom_fst. cbn [fst]. destruct (in_dec Z.eq_dec (fst l) (map fst acc)) as [X|X]; [|rewrite El; auto].
            exfalso. rewrite Ea in X. apply in_app_or in X. rewrite F0 in X. destruct X as [X|X]; apply filter_In in X.
            * destruct X as (_ & X). rewrite Z.eqb_refl in X. discriminate.
            * apply Nx. rewrite El. tauto.
          + rewrite add_atom_fst. f_equal.
            destruct (in_dec Z.eq_dec (fst x) (map fst acc)) as [X|X], (in_dec Z.eq_dec (fst x) (map fst c)) as [Y|Y]; cbn [negb]; auto.
            * exfalso. rewrite Ea in X. apply in_app_or in X. rewrite F0 in X. destruct X as [X|X]; apply filter_In in X; tauto.
            * exfalso. apply X. rewrite Ea. apply in_or_app. left. rewrite F0. apply filter_In. split; auto.
              apply negb_true_iff. apply Z.eqb_neq. auto. }
      apply (G []); auto. cbn [map filter]. rewrite app_nil_r. auto.
    + intros v Hv. apply in_map_iff in Hv. destruct Hv as (x & <- & Hx). unfold keep. rewrite (FIND x Hx).
      destruct (Z.eqb_spec (fst x) (fst l)) as [El|Nl].
      * rewrite negb_true_iff, Z.eqb_neq. split.
        -- intro N. right. split; auto. destruct (nonzero_inn _ N) as (e & He). apply inn_land in He. destruct He as (H1 & H2).
           exists e. apply andb_true_iff. split; [|exact H1]. apply allows_in. exists (snd x). split; [destruct x; auto|exact H2].
        -- intros [(N & _)|(_ & e & He)]; [tauto|]. apply andb_true_iff in He. destruct He as (H1 & H2).
           apply allows_in in H1. destruct H1 as (m & Hm & H1). apply (inn_nonzero e). apply inn_land. split; [exact H2|].
           assert (E : (fst x, m) = x) by (apply (nodup_fst_eq r); auto). rewrite <- E. exact H1.
      * destruct (in_dec Z.eq_dec (fst x) (map fst c)); cbn [negb]; intuition congruence.
  - intros v m e Hi. rewrite (has_allowed _ v m e (resolve_nodup c l r) Hi), EB.
    assert (A0 : set_allows c0 v e = if v =? fst l then false else set_allows c v e).
    { unfold set_allows, c0. clear. induction c as [|x c IH]; [destruct (v =? fst l); auto|]. cbn [filter existsb].
      destruct (Z.eqb_spec (fst x) (fst l)) as [El|Nl]; cbn [negb existsb].
      - rewrite IH, El. rewrite (Z.eqb_sym (fst l) v). destruct (v =? fst l); auto.
      - rewrite IH. destruct (Z.eqb_spec v (fst l)) as [->|N]; auto. destruct (Z.eqb_spec (fst x) (fst l)); [congruence|auto]. }
    assert (G : forall r acc, set_allows (fold_left (bresolve_step l) r acc) v e = set_allows acc v e ||
      (set_allows r v e && (if v =? fst l then Z.testbit (snd l) e else true))).
    { clear. induction r as [|x r IH]; intro acc; cbn [fold_left].
      - unfold set_allows at 3. cbn. rewrite orb_false_r. auto.
      - rewrite IH. unfold set_allows at 4. cbn [existsb]. fold (set_allows r v e). unfold bresolve_step.
        destruct (Z.eqb_spec (fst x) (fst l)) as [El|Nl].
        + destruct (Z.eqb_spec (Z.land (snd l) (snd x)) 0) as [Ez|Nz].
          * rewrite El, (Z.eqb_sym (fst l) v). destruct (Z.eqb_spec v (fst l)) as [->|N]; cbn [andb orb].
            -- assert (X : Z.testbit (snd x) e && Z.testbit (snd l) e = false).
               { rewrite andb_comm, <- Z.land_spec, Ez. apply Z.bits_0. }
               rewrite andb_orb_distrib_l, X. auto.
            -- auto.
          * rewrite allows_add. cbn [fst snd]. rewrite El, (Z.eqb_sym (fst l) v), Z.land_spec.
            destruct (v =? fst l); cbn [andb orb]; [|rewrite orb_false_r; auto].
            destruct (set_allows acc v e), (Z.testbit (snd l) e), (Z.testbit (snd x) e), (set_allows r v e); auto.
        + rewrite allows_add. destruct (Z.eqb_spec v (fst l)) as [->|N].
          * destruct (Z.eqb_spec (fst x) (fst l)); [congruence|]. cbn [andb orb]. rewrite orb_false_r. auto.
          * rewrite !andb_true_r, orb_assoc. auto. }
    rewrite G, A0. destruct (v =? fst l).
    + cbn [orb]. rewrite andb_true_iff. reflexivity.
    + rewrite andb_true_r, orb_true_iff. reflexivity.
Qed.

(** ** The node of a literal *)

Section Nodes.
Variable NV : Z.
Variable F : Z -> Z.

Lemma gone_node T v i : inn i (F v) -> ~ inn i (D F T v) -> exists x, In x (proj v T) /\ inn i (nvals x).
Proof.
  induction T as [|(u, x) T IH]; intros H1 H2; [cbn in H2; tauto|]. rewrite proj_cons. rewrite D_cons in H2.
  destruct (Z.eqb_spec u v) as [->|N].
  - destruct (inn_dec i (nvals x)) as [Y|Y]; [exists x; split; [left|]; auto|].
    destruct IH as (y & Hy & Hi); auto. exists y. split; [right|]; auto.
  - apply IH; auto. tauto.
Qed.

Lemma find_node_spec ns m : (exists x i, In x ns /\ inn i (nvals x) /\ inn i m) ->
  exists later before, ns = later ++ bfind_node ns m :: before /\
    (exists d, has_value (nvals (bfind_node ns m)) d /\ has_value m d) /\
    forall y d, In y later -> has_value (nvals y) d -> ~ has_value m d.
Proof.
  induction ns as [|x ns IH]; intros (y & i & Hy & H1 & H2); [destruct Hy|]. cbn [bfind_node].
  destruct (Z.eqb_spec (Z.land (nvals x) m) 0) as [E|E].
  - rewrite land_zero in E. destruct IH as (l1 & l2 & E1 & E2 & E3).
    { exists y, i. destruct Hy as [->|Hy]; [exfalso; apply (E i); auto|auto]. }
    exists (x :: l1), l2. split; [cbn; congruence|]. split; [auto|]. intros z d [<-|Hz]; [apply E|apply E3; auto].
  - exists [], ns. split; auto. split; [|intros z d []]. destruct (nonzero_inn _ E) as (d & Hd). apply inn_land in Hd. exists d. exact Hd.
Qed.

Lemma node_falsified s T l : (forall v, bnodes s v = proj v T) -> falseL F T l -> snd l <> 0 ->
  (forall i, inn i (snd l) -> inn i (F (fst l))) -> falsified_by s l (nodeL T l).
Proof.
  intros E Hf Hz HF. destruct (nonzero_inn _ Hz) as (i & Hi).
  destruct (gone_node T (fst l) i (HF i Hi) (Hf i Hi)) as (x & Hx & Hxi).
  destruct (find_node_spec (proj (fst l) T) (snd l)) as (l1 & l2 & E1 & E2 & E3); [exists x, i; auto|].
  exists l1, l2. rewrite E. auto.
Qed.

Lemma cut_proj k v T : proj v (cut k T) = filter (fun x => nlev x <=? k) (proj v T).
Proof.
  induction T as [|(u, x) T IH]; auto. rewrite proj_cons. unfold cut. cbn [filter snd]. fold (cut k T).
  destruct (Z.eqb_spec u v) as [->|N]; cbn [filter]; destruct (nlev x <=? k); rewrite ?proj_cons, ?Z.eqb_refl, IH; auto.
  destruct (Z.eqb_spec u v); [congruence|]. auto.
Qed.

Lemma cut_D cl k v T i : okT NV F cl T ->
  inn i (D F (cut k T) v) <-> inn i (D F T v) \/ exists x, In x (proj v T) /\ k < nlev x /\ inn i (nvals x).
Proof.
  intro OK. destruct (Z_lt_le_dec k (toplev T)) as [L|L].
  2: { rewrite (cut_all NV F cl) by auto. split; [auto|]. intros [H|(x & Hx & Hk & _)]; auto. exfalso.
       unfold proj in Hx. apply in_map_iff in Hx. destruct Hx as (e & <- & He). apply filter_In in He.
       pose proof (lev_bound NV F cl T e OK (proj1 He)). lia. }
  revert OK L. induction T as [|(u, x) T IH]; intros OK L.
  - split; [auto|]. intros [H|(x & [] & _)]; auto.
  - cbn [toplev] in L. rewrite cut_cons by auto. destruct OK as (HN & OK).
    assert (IH' : inn i (D F (cut k T) v) <-> inn i (D F T v) \/ exists x, In x (proj v T) /\ k < nlev x /\ inn i (nvals x)).
    { destruct (Z_lt_le_dec k (toplev T)) as [L'|L']; [auto|]. rewrite (cut_all NV F cl) by auto.
      split; [auto|]. intros [H|(y & Hy & Hk & _)]; auto. exfalso.
      unfold proj in Hy. apply in_map_iff in Hy. destruct Hy as (e & <- & He). apply filter_In in He.
      pose proof (lev_bound NV F cl T e OK (proj1 He)). lia. }
    rewrite IH', proj_cons, D_cons. destruct (Z.eqb_spec u v) as [->|N].
    + destruct HN as (_ & _ & _ & H4 & _). split.
      * intros [H|(y & Hy & Hk & Hi)]; [|right; exists y; split; [right|]; auto].
        destruct (inn_dec i (nvals x)) as [Y|Y]; [right; exists x; split; [left|]; auto|]. left. split; auto.
      * intros [(H & _)|(y & [<-|Hy] & Hk & Hi)]; [auto|left; auto|right; exists y; auto].
    + split; (intros [H|H]; [|right; exact H]); left; [split; auto; congruence|tauto].
Qed.

End Nodes.
