(** * The second solver: the check of the printed sets can be relied on, whatever happened before *)

From Coq Require Import Floats.SpecFloat.
From Verif Require Import Spec Outcome State ModelHeur ModelSearch ModelBuild ModelBit Base BitTrail BitInv
  BitResolve BitLearn BitLoop BitSpec BitBuild.

Section Safe.
Variable C0 : list bclause.
Variable F : Z -> Z.
Variable NV : Z.

Record kept (s : bst) : Prop := {
  k_nv : bnv s = NV;
  k_cl : exists L, bcl s = C0 ++ L;
  k_cur : forall v i, inn i (bcur s v) -> inn i (F v);
  k_nodes : forall v x i, In x (bnodes s v) -> inn i (nvals x) -> inn i (F v)
}.

Definition same (s s' : bst) : Prop :=
  bnv s' = bnv s /\ bcl s' = bcl s /\ bcur s' = bcur s /\ bnodes s' = bnodes s.

Lemma same_refl s : same s s.
Proof. unfold same. auto. Qed.
Ltac sm := unfold same; cbn; auto.

Lemma same_trans s1 s2 s3 : same s1 s2 -> same s2 s3 -> same s1 s3.
Proof. unfold same. intuition congruence. Qed.

Lemma kept_same s s' : kept s -> same s s' -> kept s'.
Proof. intros [] (E1 & E2 & E3 & E4). constructor; rewrite ?E1, ?E2, ?E3, ?E4; auto. Qed.

Lemma record_same s v n s' : badd_record s v n = Ok s' -> same s s'.
Proof. unfold badd_record. intro H. apply bind_ok in H. destruct H as (u & _ & H). injection H as <-. sm. Qed.

Lemma bump_same s l s' : bump_lit s l = Ok s' -> same s s'.
Proof.
  unfold bump_lit. intro H. apply bind_ok in H. destruct H as (u & _ & H).
  destruct (max_domain <? bdom s (fst l)); [discriminate|]. injection H as <-. sm.
Qed.

Lemma bumps_same ls s s' : foldM bump_lit ls s = Ok s' -> same s s'.
Proof.
  intro H. apply (foldM_inv_ok bump_lit (same s) ls s); auto using same_refl.
  intros x b1 b2 _ H1 H2. eapply same_trans; eauto using bump_same.
Qed.

Lemma swap_same v n s s' : bswap v n s = Ok s' -> same s s'.
Proof.
  unfold bswap. intro H. apply bind_ok in H. destruct H as (c & _ & H). apply bind_ok in H. destruct H as (x & _ & H).
  destruct x; try (injection H as <-; sm).
  apply bind_ok in H. destruct H as (o & _ & H). destruct o as [l|]; [|injection H as <-; sm].
  destruct (fst (bw0 s n) =? v); [|discriminate]. apply bind_ok in H. destruct H as (s1 & E & H). injection H as <-.
  apply record_same in E. exact E.
Qed.

Lemma visit_same v n s s' : bvisit v n s = Ok s' -> same s s'.
Proof.
  unfold bvisit. intro H. apply bind_ok in H. destruct H as (c & _ & H). apply bind_ok in H. destruct H as (x & _ & H).
  assert (G : (let* y := bsat s (bw1 s n) in
      match y with
      | SatTrue => Ok (bflip n s)
      | _ =>
          let s := if fst (bw1 s n) =? v then bflip n s else s in
          let* z := bsat s (bw0 s n) in
          match z with SatFalse => bswap v n s | _ => Ok s end
      end) = Ok s' -> same s s').
  { clear H. intro H. apply bind_ok in H. destruct H as (y & _ & H).
    assert (G : (let* z := bsat (if fst (bw1 s n) =? v then bflip n s else s) (bw0 (if fst (bw1 s n) =? v then bflip n s else s) n) in
          match z with SatFalse => bswap v n (if fst (bw1 s n) =? v then bflip n s else s)
            | _ => Ok (if fst (bw1 s n) =? v then bflip n s else s) end) = Ok s' -> same s s').
    { clear H. intro H. apply bind_ok in H. destruct H as (z & _ & H).
      assert (S1 : same s (if fst (bw1 s n) =? v then bflip n s else s)) by (destruct (_ =? _); sm).
      destruct z; try (injection H as <-; exact S1). apply swap_same in H. eapply same_trans; eauto. }
    destruct y; auto. injection H as <-. sm. }
  destruct x; auto. injection H as <-. sm.
Qed.

Lemma update_same v ns : forall s s', bupdate v ns s = Ok s' -> same s s'.
Proof.
  induction ns as [|n ns IH]; intros s s' H; cbn [bupdate] in H; [injection H as <-; sm|].
  destruct (bconf s); [injection H as <-; sm|]. apply bind_ok in H. destruct H as (s1 & E & H).
  apply visit_same in E. apply IH in H. eapply same_trans; eauto.
Qed.

Lemma reduce_kept s l s' : breduce s l = Ok s' -> kept s -> kept s'.
Proof.
  unfold breduce. intros H K. apply bind_ok in H. destruct H as (u & _ & H).
  destruct (Z.ldiff (bcur s (fst l)) (snd l) =? 0); [injection H as <-; auto|].
  apply update_same in H. eapply kept_same; [|exact H]. destruct K. constructor; cbn; auto.
  - intros v i Hi. destruct (Z.eq_dec v (fst l)) as [->|N].
    + rewrite upd1_same in Hi. apply inn_land in Hi. apply k_cur0. tauto.
    + rewrite upd1_other in Hi by auto. auto.
  - intros v x i Hx Hi. destruct (Z.eq_dec v (fst l)) as [->|N].
    + rewrite upd1_same in Hx. destruct Hx as [<-|Hx]; [|eauto]. cbn in Hi. apply inn_ldiff in Hi. apply k_cur0. tauto.
    + rewrite upd1_other in Hx by auto. eauto.
Qed.

Lemma prop_kept fuel : forall s s', bprop fuel s = Ok s' -> kept s -> kept s'.
Proof.
  induction fuel as [|f IH]; intros s s' H K; [discriminate|]. cbn [bprop] in H.
  destruct (bconf s). { injection H as <-. eapply kept_same; [eassumption|sm]. }
  destruct (bulist s) as [|n rest]; [injection H as <-; auto|].
  apply bind_ok in H. destruct H as (c & _ & H). apply bind_ok in H. destruct H as (x & _ & H).
  set (s1 := set_bulist (set_buc s (Some n)) rest) in *.
  assert (K1 : kept s1) by (eapply kept_same; [eassumption|sm]).
  assert (RED : forall l, (let* s := breduce s1 l in bprop f (set_bunits s (bunits s + 1))) = Ok s' -> kept s').
  { intros l E. apply bind_ok in E. destruct E as (s2 & E & E'). apply reduce_kept in E; auto.
    apply IH in E'; auto. eapply kept_same; [eassumption|sm]. }
  assert (G : (if Nat.ltb 1 (length c) then
      let* y := bsat s1 (bw1 s1 n) in
      match y with
      | SatUn => let* s := breduce s1 (bw1 s1 n) in bprop f (set_bunits s (bunits s + 1))
      | _ => bprop f s1
      end else bprop f s1) = Ok s' -> kept s').
  { intro E. destruct (Nat.ltb 1 (length c)); [|eapply IH; eauto].
    apply bind_ok in E. destruct E as (y & _ & E). destruct y; eauto. }
  destruct x; eauto.
Qed.

Lemma learn_kept cf s q a b s' : blearn cf s q a b = Ok s' -> kept s -> kept s'.
Proof.
  unfold blearn. cbv zeta. intros H K. apply bind_ok in H. destruct H as (s1 & E1 & H).
  apply bind_ok in H. destruct H as (s2 & E2 & H). apply bind_ok in H. destruct H as (s3 & E3 & H).
  destruct (blen cf); [|discriminate]. injection H as <-.
  apply record_same in E1. apply bumps_same in E3.
  assert (S2 : same s1 s2).
  { destruct (Nat.ltb 1 (length q)); [apply record_same in E2; auto|]. injection E2 as <-. sm. }
  pose proof (same_trans _ _ _ (same_trans _ _ _ E1 S2) E3) as S3.
  assert (K1 : kept s3).
  { eapply kept_same; [|exact S3]. destruct K. constructor; cbn; auto. destruct k_cl0 as (L & ->).
    exists (L ++ [q]). rewrite app_assoc. auto. }
  eapply kept_same; [eassumption|sm].
Qed.

Lemma analyze_kept fuel cf : forall s q a b fresh s' r, banalyze fuel cf s q a b fresh = Ok (s', r) -> kept s -> kept s'.
Proof.
  induction fuel as [|f IH]; intros s q a b fresh s' r H K; [discriminate|]. cbn [banalyze] in H.
  apply bind_ok in H. destruct H as (p & _ & H). destruct p.
  - destruct fresh; [|discriminate]. apply bind_ok in H. destruct H as (s1 & E & H). injection H as <- <-.
    eapply learn_kept; eauto.
  - apply bind_ok in H. destruct H as (x & _ & H). destruct (nreason x) as [n|]; [|discriminate].
    apply bind_ok in H. destruct H as (c & _ & H). apply bind_ok in H. destruct H as (w & _ & H). eapply IH; eauto.
Qed.

Lemma pop_kept lev v ns : forall cur aix, (forall i, inn i cur -> inn i (F v)) ->
  (forall x i, In x ns -> inn i (nvals x) -> inn i (F v)) ->
  forall ns' cur' aix', bpop lev ns cur aix = (ns', cur', aix') ->
  (forall i, inn i cur' -> inn i (F v)) /\ (forall x i, In x ns' -> inn i (nvals x) -> inn i (F v)).
Proof.
  induction ns as [|x ns IH]; intros cur aix HC HN ns' cur' aix' E; cbn [bpop] in E.
  - injection E as <- <- _. auto.
  - destruct (lev <? nlev x); [|injection E as <- <- _; auto].
    apply (IH (Z.lor cur (nvals x)) (aix - 1)) in E; auto.
    + intros i Hi. apply inn_lor in Hi. destruct Hi as [Hi|Hi]; [auto|]. apply (HN x); auto. left. auto.
    + intros y i Hy. apply HN. right. auto.
Qed.

Lemma undo_kept s : kept s -> kept (bundo s).
Proof.
  unfold bundo. generalize (zrange 1 (bnv s)) as vs. intros vs. revert s. induction vs as [|v vs IH]; intros s K; auto.
  cbn [fold_left]. apply IH. unfold bundo_var.
  destruct (bpop (blevel s) (bnodes s v) (bcur s v) (baix s)) as ((ns & cur) & aix) eqn:E.
  destruct K. apply (pop_kept (blevel s) v) in E; auto; [|eauto]. destruct E as (H1 & H2).
  constructor; cbn; auto.
  - intros u i Hi. destruct (Z.eq_dec u v) as [->|N]; [rewrite upd1_same in Hi|rewrite upd1_other in Hi by auto]; auto.
  - intros u x i Hx. destruct (Z.eq_dec u v) as [->|N]; [rewrite upd1_same in Hx|rewrite upd1_other in Hx by auto]; eauto.
Qed.

Lemma conflict_kept fuel cf r rc s s' rc' : bconflict fuel cf r rc s = Ok (s', rc') -> kept s -> kept s'.
Proof.
  unfold bconflict. intros H K. apply bind_ok in H. destruct H as (ls & _ & H).
  apply bind_ok in H. destruct H as ((s1, (q, b)) & E & H). apply analyze_kept in E; auto.
  apply bind_ok in H. destruct H as (lev & _ & H).
  match type of H with context [bundo ?y] => assert (K2 : kept (bundo y)) end.
  { apply undo_kept. apply (kept_same s1); [exact E|sm]. }
  destruct (_ =? rc); injection H as <- _; (eapply kept_same; [exact K2|sm]).
Qed.

Lemma choose_same cf s s' l : bchoose cf s = Ok (s', l) -> same s s'.
Proof.
  unfold bchoose, bchoose_vsids. intro H. destruct (bvsids cf); apply bind_ok in H; destruct H as (x & _ & H);
    injection H as <- _; sm.
Qed.

Lemma iter_kept fuel cf clk r rc s q : biter fuel cf clk r rc s = Ok q -> kept s ->
  kept (match q with inl (_, s') => s' | inr (_, s') => s' end).
Proof.
  unfold biter. intros H K. set (s0 := set_btick s (S (btick s))) in *.
  assert (K0 : kept s0) by (eapply kept_same; [eassumption|sm]).
  destruct (clk (btick s)); [injection H as <-; auto|].
  destruct (bconf s0 && (blevel s0 =? 0)); [injection H as <-; auto|].
  apply bind_ok in H. destruct H as ((s1, rc1) & E1 & H).
  assert (K1 : kept s1).
  { destruct (bconf s0); [apply conflict_kept in E1; auto|]. injection E1 as <- _. auto. }
  apply bind_ok in H. destruct H as (s2 & E2 & H).
  assert (K2 : kept s2).
  { destruct (bulist s1); [injection E2 as <-; auto|]. apply prop_kept in E2; auto. }
  destruct (bconf s2); [injection H as <-; auto|].
  apply bind_ok in H. destruct H as ((s3, l) & E3 & H). apply choose_same in E3.
  pose proof (kept_same _ _ K2 E3) as K3. destruct (fst l =? -1); [injection H as <-; auto|].
  apply bind_ok in H. destruct H as (s4 & E4 & H). injection H as <-. apply reduce_kept in E4; auto.
  apply (kept_same s3); [exact K3|sm].
Qed.

Lemma loop_kept fuel cf clk r : forall rc s v s', bloop fuel cf clk r rc s = Ok (v, s') -> kept s -> kept s'.
Proof.
  induction fuel as [|f IH]; intros rc s v s' H K; [discriminate|]. cbn [bloop] in H.
  apply bind_ok in H. destruct H as (q & E & H). apply iter_kept in E; auto.
  destruct q as [(v1, s1)|(rc1, s1)].
  - injection H as <- <-. auto.
  - eapply IH; eauto.
Qed.

End Safe.

Lemma verify_true s cs : bverify_clauses s cs = Ok true ->
  forall c, In c cs -> exists l, In l c /\ forall i, inn i (bcur s (fst l)) -> inn i (snd l).
Proof.
  induction cs as [|d cs IH]; intros H c Hc; [destruct Hc|]. cbn [bverify_clauses] in H.
  apply bind_ok in H. destruct H as (b & E & H). destruct b; [|discriminate]. destruct Hc as [<-|Hc]; [|auto].
  clear - E. induction d as [|l d IH]; [discriminate|]. cbn [bverify_clause] in E.
  apply bind_ok in E. destruct E as (u & _ & E). destruct (Z.eqb_spec (Z.ldiff (bcur s (fst l)) (snd l)) 0) as [Z0|].
  - exists l. split; [left; auto|]. apply ldiff_zero. auto.
  - destruct (IH E) as (m & Hm & H). exists m. split; [right; auto|auto].
Qed.

Theorem bit_checked p fuel cf clk r rep s : wf p -> fits64 p -> bsolve fuel cf clk r p = Ok (rep, s) ->
  br_verified rep = Some true -> forall a, picks (br_model rep) a -> is_model p a.
Proof.
  intros W FI H V a Ha. destruct (build_ok p W FI) as (s0 & EB & HB & EC).
  unfold bsolve in H. rewrite EB in H. cbn [bind] in H. unfold bsolve_state in H.
  apply bind_ok in H. destruct H as ((v, s1) & EL & H).
  assert (K0 : kept (bcl s0) (bcur s0) (nvars p) s0).
  { destruct (bu_base p s0 HB). constructor; auto. - exists []. rewrite app_nil_r. auto.
    - intros u x i Hx. rewrite b_nodes in Hx. destruct Hx. }
  apply (loop_kept (bcl s0) (bcur s0) (nvars p)) in EL; auto. destruct EL as [E1 (L & E2) E3 _].
  destruct v; try (injection H as <- <-; discriminate).
  apply bind_ok in H. destruct H as (b & EV & H). injection H as <- <-. cbn [br_verified br_model] in *.
  injection V as ->.
  assert (Hcur : forall u, 1 <= u <= nvars p -> inn (a u) (bcur s1 u)).
  { intros u Hu. apply (Ha u (bcur s1 u)); [|lia]. unfold bprint.
    apply (in_map (fun i => (i, bcur s1 i))). apply in_zrange. lia. }
  assert (LG : legal p a).
  { intros u Hu. apply (FF_in p W FI u (a u) Hu). specialize (E3 u (a u) (Hcur u Hu)).
    rewrite (b_cur _ _ _ _ s0 [] (bu_base p s0 HB)) in E3 by lia. exact E3. }
  split; auto. intros c Hc. destruct (proj2 W c Hc) as (NE & WL).
  apply (convC_holds p W FI); auto.
  destruct (verify_true s1 (bcl s1) EV (convC p c)) as (l & Hl & HL).
  { rewrite E2, EC. apply in_or_app. left. apply in_map. auto. }
  exists l. split; auto. apply HL. apply Hcur.
  apply (convC_ok p W FI c NE WL Hc). auto.
Qed.

Theorem bit_rows p fuel cf clk r rep s : wf p -> fits64 p -> bsolve fuel cf clk r p = Ok (rep, s) ->
  br_verified rep <> None -> map fst (br_model rep) = zrange 0 (nvars p + 1).
Proof.
  intros W FI H V. destruct (build_ok p W FI) as (s0 & EB & HB & EC).
  unfold bsolve in H. rewrite EB in H. cbn [bind] in H. unfold bsolve_state in H.
  apply bind_ok in H. destruct H as ((v, s1) & EL & H).
  assert (K0 : kept (bcl s0) (bcur s0) (nvars p) s0).
  { destruct (bu_base p s0 HB). constructor; auto. - exists []. rewrite app_nil_r. auto.
    - intros u x i Hx. rewrite b_nodes in Hx. destruct Hx. }
  apply (loop_kept (bcl s0) (bcur s0) (nvars p)) in EL; auto. destruct EL as [E1 _ _ _].
  destruct v; try (injection H as <- <-; cbn in V; congruence).
  apply bind_ok in H. destruct H as (b & EV & H). injection H as <- <-. cbn [br_model].
  unfold bprint. rewrite map_map. cbn [fst]. rewrite map_id, E1. reflexivity.
Qed.
