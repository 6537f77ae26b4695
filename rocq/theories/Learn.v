(** * Learning a clause and jumping back *)

From Coq Require Import Floats.SpecFloat.
From Verif Require Import Spec Outcome State ModelCounter ModelHeur ModelLearn Base Trail Reduce
  Counter CounterUndo Propagate Choose Scores Chrono Analyze.

(** ** learnClause *)

Definition add_rec (n : nat) (ls : clause) (r : lit -> list nat) (r' : lit -> list nat) : Prop :=
  forall l, r' l = r l ++ repeat n (occ l ls).

Lemma learn_atoms c n ls s :
  DOM (tr s) 0 = 0 -> (forall l, In l ls -> lrange (tr s) l) ->
  exists r v, foldM (learn_atom c n) ls s = Ok (set_vs (set_rec s r) v) /\
    (watch c = true -> r = rec s) /\ (watch c = false -> add_rec n ls (rec s) r) /\
    (scores_ok s -> forall l, nonneg (v l)).
Proof.
  revert s. induction ls as [|l ls IH]; intros s D0 R.
  - exists (rec s), (vs s). simpl. split; [destruct s; reflexivity|]. split; auto. split; auto.
    intros _ l. simpl. rewrite app_nil_r. auto.
  - cbn [foldM]. unfold learn_atom at 1. rewrite chk_ok by (auto; apply R; left; auto). cbn [bind].
    set (s1 := if watch c then s else set_rec s (updl (rec s) l (rec s l ++ [n]))).
    set (s2 := match heur c with
      | VSIDS => bump s1 l
      | VSIDS_pos => if leq l then bump s1 l else bump_others s1 (lvar l) (lval l)
      | _ => s1
      end).
    assert (O : only_vs s1 s2 /\ (scores_ok s1 -> scores_ok s2)).
    { unfold s2. destruct (heur c); try (split; auto; apply only_vs_refl).
      - split; [eexists; reflexivity|]. apply scores_bump.
      - destruct (leq l); [|apply bump_others_ok]. split; [eexists; reflexivity|]. apply scores_bump. }
    destruct O as ((v1 & E2) & SC).
    assert (E1 : exists r1, s1 = set_rec s r1 /\ (watch c = true -> r1 = rec s) /\
             (watch c = false -> r1 = updl (rec s) l (rec s l ++ [n]))).
    { unfold s1. destruct (watch c).
      - exists (rec s). split; [destruct s; reflexivity|]. split; auto. discriminate.
      - eexists. split; [reflexivity|]. split; auto. discriminate. }
    destruct E1 as (r1 & E1 & W1 & W2).
    assert (T2 : tr s2 = tr s) by (rewrite E2, E1; reflexivity).
    destruct (IH s2) as (r & v & E & P1 & P2 & P3).
    { rewrite T2; auto. }
    { rewrite T2. intros x Hx. apply R. right; auto. }
    exists r, v. assert (R2 : rec s2 = r1) by (rewrite E2, E1; reflexivity). rewrite R2 in P1, P2.
    split; [rewrite E, E2, E1; reflexivity|]. split.
    { intro W. rewrite P1; auto. }
    split.
    + intros W x. rewrite (P2 W x), (W2 W). unfold occ. rewrite countb_cons.
      destruct (lit_eqb_spec x l) as [->|N].
      * rewrite updl_same, <- app_assoc. reflexivity.
      * rewrite updl_other by auto. reflexivity.
    + intro S. apply P3. apply SC. rewrite E1. exact S.
Qed.

(** The state after learning [C] with watched literals [a] and [b]. *)
Record learnt (c : cfg) (s : state) (C : clause) (a b : lit) (s' : state) : Prop := mkLearnt {
  le_tr : tr s' = tr s;
  le_cl : cl s' = cl s ++ [C];
  le_num : num s' = updn (num s) (length (cl s)) 0;
  le_clev : clev s' = updn (clev s) (length (cl s)) (-1);
  le_w0 : w0 s' = updn (w0 s) (length (cl s)) a;
  le_w1 : w1 s' = updn (w1 s) (length (cl s)) b;
  le_cnt : cnt s' = cnt s;
  le_rec : watch c = false -> add_rec (length (cl s)) C (rec s) (rec s');
  le_recw : watch c = true -> rec s' = rec s;
  le_wls : watch c = false -> wls s' = wls s;
  le_wlsw : watch c = true ->
    wls s' = if Nat.ltb 1 (length C)
             then updl (updl (wls s) a (length (cl s) :: wls s a)) b
                       (length (cl s) :: updl (wls s) a (length (cl s) :: wls s a) b)
             else updl (wls s) a (length (cl s) :: wls s a);
  le_vs : scores_ok s -> scores_ok s';
  le_level : level s' = level s;
  le_ulist : ulist s' = ulist s;
  le_conflict : conflict s' = conflict s;
  le_confcl : confcl s' = confcl s;
  le_backtracks : backtracks s' = backtracks s;
  le_decisions : decisions s' = decisions s;
  le_restarts : restarts s' = restarts s;
  le_tick : tick s' = tick s
}.

Lemma learn_clause_ok c s C a b :
  lenient c = true -> DOM (tr s) 0 = 0 -> (forall l, In l C -> lrange (tr s) l) ->
  (watch c = true -> In a C /\ ((2 <= length C)%nat -> In b C)) ->
  exists s', learn_clause c s C a b = Ok s' /\ learnt c s C a b s'.
Proof.
  intros Le D0 R W. unfold learn_clause.
  set (n := length (cl s)).
  set (s1 := set_w1 _ _).
  assert (E1 : exists s2, (if watch c then
              let* s := add_record s1 a n in
              if Nat.ltb 1 (length C) then add_record s b n else Ok s
            else Ok s1) = Ok s2 /\
     s2 = set_wls s1 (if watch c then if Nat.ltb 1 (length C)
             then updl (updl (wls s) a (length (cl s) :: wls s a)) b
                       (length (cl s) :: updl (wls s) a (length (cl s) :: wls s a) b)
             else updl (wls s) a (length (cl s) :: wls s a) else wls s)).
  { destruct (watch c).
    - destruct (W eq_refl) as (Ha & Hb). unfold add_record.
      rewrite chk_ok by (auto; apply R; auto). cbn [bind].
      destruct (Nat.ltb_spec 1 (length C)) as [L|L].
      + rewrite chk_ok by (auto; apply R; apply Hb; lia). cbn [bind]. eexists. split; reflexivity.
      + eexists. split; reflexivity.
    - eexists. split; [reflexivity|]. destruct s; reflexivity. }
  destruct E1 as (s2 & E1 & E2). cbv zeta. fold n. rewrite E1. cbn [bind].
  destruct (learn_atoms c n C s2) as (r & v & E3 & P1 & P2 & P3).
  { rewrite E2; auto. }
  { rewrite E2; auto. }
  rewrite E3. cbn [bind]. rewrite Le. eexists. split; [reflexivity|].
  destruct (decay_ok c (set_vs (set_rec s2 r) v)) as ((v' & E4) & SC).
  assert (RC : rec s2 = rec s) by (rewrite E2; reflexivity). rewrite RC in P1, P2.
  split; try (rewrite E4, E2; reflexivity).
  - intro Wf. rewrite E4. simpl. apply P2; auto.
  - intro Wt. rewrite E4. simpl. apply P1; auto.
  - intro Wf. rewrite E4, E2, Wf. reflexivity.
  - intro Wt. rewrite E4, E2, Wt. reflexivity.
  - intro S. apply SC. intro l. apply P3. rewrite E2. exact S.
Qed.

(** ** backtrackLevel *)

Lemma backtrack_level_ok s ls : DOM (tr s) 0 = 0 ->
  (forall l, In l ls -> lrange (tr s) l /\ 0 <= llev (tr s) l) -> 1 <= level s ->
  exists lv, backtrack_level s ls = Ok lv /\ 0 <= lv < level s /\
    (forall l, In l ls -> llev (tr s) l < level s -> llev (tr s) l <= lv) /\
    (lv = 0 \/ exists l, In l ls /\ llev (tr s) l = lv).
Proof.
  intros D0 R L. unfold backtrack_level.
  set (f := fun m l => do* chk (tr s) l in
              let k := llev (tr s) l in
              Ok (if (k <? level s) && (m <? k) then k else m)).
  assert (G : forall xs m, (forall l, In l xs -> lrange (tr s) l /\ 0 <= llev (tr s) l) -> -1 <= m < level s ->
     exists m', foldM f xs m = Ok m' /\ m <= m' < level s /\
       (forall l, In l xs -> llev (tr s) l < level s -> llev (tr s) l <= m') /\
       (m' = m \/ exists l, In l xs /\ llev (tr s) l = m')).
  { induction xs as [|x xs IH]; intros m Rx M.
    - exists m. simpl. split; auto. split; [lia|]. split; [tauto|auto].
    - cbn [foldM]. unfold f at 1. destruct (Rx x (or_introl eq_refl)) as (Rr & Rz).
      rewrite chk_ok by auto. cbn [bind]. cbv zeta.
      destruct (Z.ltb_spec (llev (tr s) x) (level s)) as [B1|B1]; simpl.
      + destruct (Z.ltb_spec m (llev (tr s) x)) as [B2|B2].
        * destruct (IH (llev (tr s) x)) as (m' & E & M1 & M2 & M3); [intros; apply Rx; right; auto|lia|].
          exists m'. split; auto. split; [lia|]. split.
          -- intros l [<-|Hl] Hv; [lia|]. auto.
          -- right. destruct M3 as [->|(l & Hl & El)]; [exists x|exists l]; simpl; auto.
        * destruct (IH m) as (m' & E & M1 & M2 & M3); [intros; apply Rx; right; auto|lia|].
          exists m'. split; auto. split; [lia|]. split.
          -- intros l [<-|Hl] Hv; [lia|]. auto.
          -- destruct M3 as [->|(l & Hl & El)]; auto. right. exists l; simpl; auto.
      + destruct (IH m) as (m' & E & M1 & M2 & M3); [intros; apply Rx; right; auto|lia|].
        exists m'. split; auto. split; [lia|]. split.
        * intros l [<-|Hl] Hv; [lia|]. auto.
        * destruct M3 as [->|(l & Hl & El)]; auto. right. exists l; simpl; auto. }
  destruct (G ls (-1)) as (m & E & M1 & M2 & M3); auto; try lia.
  rewrite E. cbn [bind]. eexists. split; [reflexivity|].
  destruct (Z.eqb_spec m (-1)) as [->|N].
  - split; [lia|]. split; auto. intros l Hl Hv. specialize (M2 l Hl Hv). lia.
  - split; [lia|]. split; auto. destruct M3; auto. lia.
Qed.

(** ** The conflict clause and the learned clause against the clauses present *)

Lemma clo_false t lev cls D :
  CLO t cls lev -> 1 <= lev -> In D cls -> NoDup D ->
  (forall l, In l D -> lit_false t l = true /\ llev t l <= lev) ->
  exists x y, In x D /\ In y D /\ x <> y /\ llev t x = lev /\ llev t y = lev.
Proof.
  intros H L HD ND F. destruct (H (lev - 1) D) as [(l & Hl & Tl & _)|K]; auto; try lia.
  - exfalso. destruct (F l Hl) as (Fl & _). apply lit_true_asg in Tl. apply lit_false_asg in Fl.
    rewrite Tl in Fl. destruct (leq l); discriminate.
  - destruct (countb_two _ _ K ND) as (x & y & Hx & Hy & N & Fx & Fy).
    exists x, y. split; auto. split; auto. split; auto.
    destruct (F x Hx) as (X1 & X2). destruct (F y Hy) as (Y1 & Y2).
    unfold notfalse in Fx, Fy. rewrite X1 in Fx. rewrite Y1 in Fy. simpl in Fx, Fy.
    destruct (Z.leb_spec (llev t x) (lev - 1)); [discriminate|].
    destruct (Z.leb_spec (llev t y) (lev - 1)); [discriminate|]. lia.
Qed.

(** No clause present is contained in the learned clause. *)
Definition fresh (cls : list clause) (C : clause) : Prop :=
  forall D, In D cls -> ~ incl D C.

Lemma learned_fresh t lev ex cls C :
  TB t lev ex -> CLO t cls lev -> 1 <= lev -> (forall D, In D cls -> NoDup D) ->
  AN t lev C -> one_at t lev C -> fresh cls C.
Proof.
  intros HB H L ND A (u & U1 & U2 & U3) D HD I.
  destruct (clo_false t lev cls D) as (x & y & Hx & Hy & N & Lx & Ly); auto.
  - intros l Hl. split; [apply (an_false _ _ _ A); auto|].
    apply (an_le t lev ex HB C l A). auto.
  - destruct (lit_eq_dec x u) as [->|Nx].
    + assert (llev t y < lev) by (apply U3; auto). lia.
    + assert (llev t x < lev) by (apply U3; auto). lia.
Qed.

(** ** Adding the clause to the counters *)

Lemma TR_app t cls cls' : TR t cls -> TR t (cls ++ cls').
Proof.
  intros H i f Hf. specialize (H i f Hf). unfold reason_ok in *.
  destruct (CID t (lvar f) (lval f)); auto. destruct H as (R & HR & H). exists R.
  split; auto. rewrite nth_error_app1; auto. apply nth_error_lt in HR. auto.
Qed.

Lemma nocc_app n l1 l2 : nocc n (l1 ++ l2) = (nocc n l1 + nocc n l2)%nat.
Proof. apply countb_app. Qed.

Lemma nocc_repeat n m k : nocc n (repeat m k) = if Nat.eqb n m then k else 0%nat.
Proof.
  unfold nocc. induction k as [|k IH]; simpl.
  - destruct (Nat.eqb n m); auto.
  - rewrite countb_cons, IH. destruct (Nat.eqb n m); auto.
Qed.

Lemma nocc_over n l k : (forall m, In m l -> (m < k)%nat) -> (k <= n)%nat -> nocc n l = 0%nat.
Proof. intros H K. apply nocc_zero. intro X. apply H in X. lia. Qed.

Lemma cases_snoc {A} (l : list A) x n y : nth_error (l ++ [x]) n = Some y ->
  (n < length l)%nat /\ nth_error l n = Some y \/ n = length l /\ y = x.
Proof.
  intro H. destruct (Nat.lt_ge_cases n (length l)) as [L|L].
  - left. split; auto. rewrite nth_error_app1 in H; auto.
  - right. pose proof (nth_error_lt _ _ _ H) as K. rewrite app_length in K. simpl in K.
    assert (n = length l) by lia. subst n. rewrite nth_error_app2, Nat.sub_diag in H by lia.
    simpl in H. split; auto. congruence.
Qed.

Lemma learnt_SI c s C a b s' :
  watch c = false -> SI s -> C <> [] -> (forall l, In l C -> lrange (tr s) l) ->
  learnt c s C a b s' -> SI s'.
Proof.
  intros W S NE R L. assert (AR := le_rec _ _ _ _ _ _ L W). split.
  - intros n D l Hn. rewrite AR, nocc_app, nocc_repeat. rewrite (le_cl _ _ _ _ _ _ L) in Hn.
    apply cases_snoc in Hn. destruct Hn as [(Hn & HD)|(-> & ->)].
    + destruct (Nat.eqb_spec n (length (cl s))); [lia|]. rewrite (si_occ _ S n D l HD). lia.
    + rewrite Nat.eqb_refl. rewrite (nocc_over _ _ (length (cl s))); auto. apply (si_id _ S).
  - intros l n Hn. rewrite AR in Hn. rewrite (le_cl _ _ _ _ _ _ L), app_length. simpl.
    apply in_app_iff in Hn. destruct Hn as [Hn|Hn].
    + apply (si_id _ S) in Hn. lia.
    + apply repeat_spec in Hn. lia.
  - rewrite (le_tr _ _ _ _ _ _ L), (le_cl _ _ _ _ _ _ L). intros D l HD Hl.
    apply in_app_iff in HD. destruct HD as [HD|[<-|[]]]; auto. apply (si_ok _ S D); auto.
  - rewrite (le_cl _ _ _ _ _ _ L). intro X. apply in_app_iff in X. destruct X as [X|[X|[]]]; auto.
    apply (si_ne _ S); auto.
Qed.

Lemma false_not t l : lit_false t l = true -> lit_true t l = false /\ lit_un t l = false.
Proof. intro F. destruct (lit_cases t l) as [X|[X|X]]; intuition congruence. Qed.

Lemma learnt_CI c s C a b s' :
  CI s -> (forall l, In l C -> lit_false (tr s) l = true) -> learnt c s C a b s' -> CI s'.
Proof.
  intros I F L n D Hn. rewrite (le_cl _ _ _ _ _ _ L) in Hn.
  rewrite (le_tr _ _ _ _ _ _ L), (le_num _ _ _ _ _ _ L), (le_clev _ _ _ _ _ _ L).
  apply cases_snoc in Hn. destruct Hn as [(Hn & HD)|(-> & ->)].
  - rewrite !updn_other by lia. auto.
  - rewrite !updn_same. left. split; auto. split.
    + intros l Hl. apply false_not; auto.
    + replace (countb (lit_un (tr s)) C) with 0%nat; auto. symmetry. apply countb_zero.
      intros l Hl. apply false_not; auto.
Qed.

(** ** Jumping back *)

Lemma un_of_notfalse t lev ex l : TB t lev ex -> lrange t l -> lit_true t l = false ->
  notfalse t lev l = true -> lit_un t l = true.
Proof.
  intros H R T N. unfold notfalse in N.
  destruct (lit_false t l) eqn:FF.
  - exfalso. simpl in N.
    destruct (tb_as _ _ _ H (lvar l) (lval l) R (lit_false_as _ _ FF)) as (_ & K).
    destruct (Z.leb_spec (llev t l) lev); [discriminate|]. unfold llev in *. lia.
  - destruct (lit_cases t l) as [X|[X|X]]; intuition congruence.
Qed.

Section Jump.
Variables (t t' : trail) (cls : list clause) (lev k lv : Z) (C : clause).
Hypothesis HB : TB t lev (fun _ => True).
Hypothesis HD : TD t.
Hypothesis HL : 1 <= lev.
Hypothesis HC : CLO t cls lev.
Hypothesis HW : cls_ok t cls.
Hypothesis HA : AN t lev C.
Hypothesis HO : one_at t lev C.
Hypothesis LV1 : 0 <= lv < lev.
Hypothesis LV2 : forall x, In x C -> llev t x < lev -> llev t x <= lv.
Hypothesis LV3 : lv = 0 \/ exists y, In y C /\ llev t y = lv.
Hypothesis HK : 0 <= k <= lv.
Hypothesis HT : cut t k t'.

Let jTB : TB t' k (fun _ => False).
Proof. eapply cut_TB; eauto. lia. Qed.

Lemma jump_uip : exists u, In u C /\ llev t u = lev /\ lit_un t' u = true.
Proof.
  destruct HO as (u & U1 & U2 & U3). exists u. split; auto. split; auto.
  eapply cut_un; eauto; [apply (an_range _ _ _ HA); auto|lia].
Qed.

Lemma jump_un_one x y : k = lv -> In x C -> In y C -> lit_un t' x = true -> lit_un t' y = true -> x = y.
Proof.
  intros E Hx Hy Ux Uy. destruct HO as (u & U1 & U2 & U3).
  assert (G : forall z, In z C -> lit_un t' z = true -> z = u).
  { intros z Hz Uz. destruct (lit_eq_dec z u) as [|N]; auto. exfalso.
    specialize (U3 z Hz N). specialize (LV2 z Hz U3).
    assert (F : lit_false t' z = true).
    { rewrite (cut_false t k t'); auto; [apply (an_false _ _ _ HA)|apply (an_range _ _ _ HA)|lia]; auto. }
    apply false_not in F. destruct F; congruence. }
  rewrite (G x), (G y); auto.
Qed.

Lemma jump_two : 0 < lv -> exists x y, In x C /\ In y C /\ x <> y /\ lit_un t' x = true /\
  llev t y = lv /\ (k < lv -> lit_un t' y = true).
Proof.
  intro P. destruct jump_uip as (u & U1 & U2 & U3). destruct LV3 as [E|(y & Hy & Ly)]; [lia|].
  exists u, y. split; auto. split; auto. split; [intros ->; lia|]. split; auto. split; auto.
  intro K. eapply cut_un; eauto; [apply (an_range _ _ _ HA); auto|lia].
Qed.

Lemma two_countb {A} (f : A -> bool) l x y : In x l -> In y l -> x <> y -> f x = true -> f y = true ->
  (2 <= countb f l)%nat.
Proof.
  intros Hx Hy N Fx Fy. destruct (Nat.le_gt_cases 2 (countb f l)) as [|K]; auto.
  exfalso. apply N. apply (countb_one_unique f l); auto. lia.
Qed.

Lemma jump_CLO : (k < lv -> k = 0) -> CLO t' (cls ++ [C]) k.
Proof.
  intros K0 j D J HDD. apply in_app_iff in HDD. destruct HDD as [HDD|[<-|[]]].
  - eapply (CLO_cut t k t' cls lev); eauto. lia.
  - assert (E : k = lv) by lia. destruct jump_two as (x & y & Hx & Hy & N & Ux & Ly & _); [lia|].
    right. apply two_countb with x y; auto; unfold notfalse.
    + destruct (lit_false t' x) eqn:F; auto. apply false_not in F. destruct F; congruence.
    + rewrite (cut_llev t k t'); [|auto|apply (an_range _ _ _ HA); auto|lia].
      rewrite Ly. destruct (Z.leb_spec lv j); [lia|]. rewrite andb_false_r. auto.
Qed.

Lemma jump_CS s' :
  SI s' -> CI s' -> tr s' = t' -> cl s' = cls ++ [C] -> conflict s' = false -> level s' = k ->
  (k < lv -> k = 0) -> ulist s' = (if k <? lv then [] else [length cls]) -> CS s'.
Proof.
  intros S I Et Ec Cf El K0 Eu.
  assert (CW : cls_ok t' (cls ++ [C])) by (rewrite <- Et, <- Ec; apply S).
  assert (OLD : forall n D, nth_error cls n = Some D -> clev s' n = -1 -> 2 <= num s' n).
  { intros n D Hn Cn. assert (In D cls) by (eapply nth_error_In; eauto).
    destruct (I n D) as [(_ & I2 & I3)|(I1 & _)]; [|rewrite Et in I2, I3|lia].
    { rewrite Ec, nth_error_app1; auto. eapply nth_error_lt; eauto. }
    assert (clo t' k D) as [(l & Hl & Tl & _)|K2].
    { apply (clo_cut t k t'); auto; [|lia|apply HC; auto; lia]. intros l Hl. apply (HW D); auto. }
    - rewrite I2 in Tl; auto. discriminate.
    - rewrite I3. assert (countb (notfalse t' k) D <= countb (lit_un t') D)%nat; [|lia].
      apply countb_le. intros l Hl Nl. apply (un_of_notfalse t' k (fun _ => False)); auto.
      apply (CW D); auto. apply in_app_iff; auto. }
  assert (NEW : nth_error (cl s') (length cls) = Some C).
  { rewrite Ec, nth_error_app2, Nat.sub_diag by lia. auto. }
  destruct jump_uip as (u & U1 & U2 & U3).
  assert (NUM : clev s' (length cls) = -1 -> num s' (length cls) = Z.of_nat (countb (lit_un t') C)).
  { intro X. destruct (I _ _ NEW) as [(_ & _ & I3)|(I1 & _)]; [|lia]. rewrite Et in I3. auto. }
  assert (POS : (1 <= countb (lit_un t') C)%nat).
  { apply countb_pos. exists u; auto. }
  split.
  - split; auto. split; auto. split.
    + intros n Hn. rewrite Eu in Hn. rewrite Ec, app_length. simpl.
      destruct (k <? lv); simpl in Hn; [tauto|]. destruct Hn as [<-|[]]. lia.
    + intros n Hn Cn. rewrite Eu in Hn. destruct (Z.ltb_spec k lv); simpl in Hn; [tauto|].
      destruct Hn as [<-|[]]. rewrite (NUM Cn).
      destruct (Nat.le_gt_cases 2 (countb (lit_un t') C)) as [X|X]; [|lia].
      destruct (countb_two _ _ X (an_nodup _ _ _ HA)) as (x & y & Hx & Hy & N & Ux & Uy).
      exfalso. apply N. apply jump_un_one; auto. lia.
    + intros _ n D Hn Cn. rewrite Ec in Hn. apply cases_snoc in Hn.
      destruct Hn as [(_ & Hn)|(-> & ->)]; [left; eapply OLD; eauto|].
      rewrite (NUM Cn), Eu. destruct (Z.ltb_spec k lv) as [X|X].
      * left. destruct jump_two as (x & y & Hx & Hy & N & Ux & _ & Uy); [lia|].
        assert (2 <= countb (lit_un t') C)%nat; [|lia]. apply two_countb with x y; auto.
      * right. split; [|left; left; auto].
        destruct (Nat.le_gt_cases 2 (countb (lit_un t') C)) as [Y|Y]; [|lia].
        destruct (countb_two _ _ Y (an_nodup _ _ _ HA)) as (x & y & Hx & Hy & N & Ux & Uy).
        exfalso. apply N. apply jump_un_one; auto. lia.
    + congruence.
  - rewrite Et, El. eapply TB_weaken; [apply jTB|]. tauto.
  - rewrite Et. apply (cut_TD t k t' lev (fun _ => True)); auto. lia.
  - lia.
  - rewrite Et, Ec, El. apply jump_CLO; auto.
Qed.

End Jump.
