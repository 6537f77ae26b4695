(** * What the decision heuristics return *)

From Coq Require Import Floats.SpecFloat.
From Verif Require Import Spec Outcome State ModelCounter ModelHeur ModelLearn Base Trail Reduce
  Counter CounterUndo Propagate.

(** An atom the three counting heuristics may pick. *)
Definition open_atom (t : trail) (v d : Z) : Prop := range t v d /\ VAL t v = -1 /\ ASG t v d = Un.

Lemma in_atoms0 t v d : 0 <= NV t -> DOM t 0 = 0 -> (In (v, d) (atoms_from t 0) <-> range t v d).
Proof.
  intros N D. rewrite in_atoms_from. unfold range. split.
  - intros (H1 & H2). assert (v <> 0) by (intros ->; lia). lia.
  - lia.
Qed.

Lemma candidate_iff t v d : candidate t (v, d) = true <-> VAL t v = -1 /\ ASG t v d = Un.
Proof.
  unfold candidate; simpl. rewrite andb_true_iff, Z.eqb_eq. destruct (ASG t v d); intuition congruence.
Qed.

(** A variable without a value has an open atom. *)
Lemma noval_open t lev v :
  TB t lev (fun _ => False) -> 1 <= v <= NV t -> 2 <= DOM t v -> VAL t v = -1 -> exists d, open_atom t v d.
Proof.
  intros H Hv W V. destruct (tb_two _ _ _ H v lev) as (d1 & _ & _ & R1 & _ & O1 & _); auto.
  - intros d R P. pose proof (tb_pos _ _ _ H v d R P). destruct R; lia.
  - exists d1. split; auto. split; auto. destruct O1 as [U|L]; auto.
    destruct (ASG t v d1) eqn:A; auto;
    assert (0 <= ALEV t v d1 <= lev) by (apply H; auto; congruence); lia.
Qed.

Lemma none_open_total t lev :
  TB t lev (fun _ => False) -> (forall v d, ~ open_atom t v d) ->
  forall v d, range t v d -> ASG t v d <> Un.
Proof.
  intros H N v d R. destruct (Z.eq_dec (VAL t v) (-1)) as [V|V].
  - intro U. apply (N v d). split; auto.
  - destruct (tb_val _ _ _ H v) as (R' & P); auto. destruct R; auto.
    destruct (Z.eq_dec d (VAL t v)) as [->|Nd]; [congruence|].
    destruct (tb_neg _ _ _ H v (VAL t v) d) as (A & _); auto. congruence.
Qed.

(** Every clause has a true literal. *)
Definition all_sat (s : state) : Prop :=
  forall c, In c (cl s) -> exists l, In l c /\ lit_true (tr s) l = true.

(** *** BK *)

Lemma choose_bk_spec s :
  0 <= NV (tr s) -> DOM (tr s) 0 = 0 ->
  (lvar (choose_bk s) = -1 /\ forall v d, ~ open_atom (tr s) v d) \/
  (open_atom (tr s) (lvar (choose_bk s)) (lval (choose_bk s)) /\ leq (choose_bk s) = true /\
   forall v d, open_atom (tr s) v d ->
     cnt s (mkLit v d true) - cnt s (mkLit v d false) <=
     cnt s (choose_bk s) - cnt s (neg (choose_bk s))).
Proof.
  intros N D. unfold choose_bk.
  set (val := fun v d => cnt s (mkLit v d true) - cnt s (mkLit v d false)).
  assert (G : forall xs b,
    match b with Some (m, l) => m = val (lvar l) (lval l) /\ leq l = true | None => True end ->
    match fold_left (bk_step s) xs b with
    | None => b = None /\ forall v d, In (v, d) xs -> ~ (VAL (tr s) v = -1 /\ ASG (tr s) v d = Un)
    | Some (m, l) => m = val (lvar l) (lval l) /\ leq l = true /\
        (In (lvar l, lval l) xs /\ VAL (tr s) (lvar l) = -1 /\ ASG (tr s) (lvar l) (lval l) = Un \/
         b = Some (m, l)) /\
        (forall v d, In (v, d) xs -> VAL (tr s) v = -1 /\ ASG (tr s) v d = Un -> val v d <= m) /\
        match b with Some (m0, _) => m0 <= m | None => True end
    end).
  { induction xs as [|(v, d) xs IH]; intros b Hb; simpl.
    - destruct b as [(m, l)|].
      + destruct Hb; repeat split; auto; try lia.
      + split; auto.
    - unfold bk_step at 2. destruct (candidate (tr s) (v, d)) eqn:Cn; cbn [fst snd].
      + pose proof (proj1 (candidate_iff _ _ _) Cn) as (C1 & C2).
        fold (val v d).
        set (b' := match b with
                   | Some (m, _) => if m <? val v d then Some (val v d, mkLit v d true) else b
                   | None => Some (val v d, mkLit v d true) end).
        assert (Hb' : match b' with Some (m, l) => m = val (lvar l) (lval l) /\ leq l = true | None => True end).
        { subst b'. destruct b as [(m, l)|]; [|split; auto]. destruct (m <? val v d); auto. }
        assert (G1 : match b' with Some (m', l') => val v d <= m' /\
                      match b with Some (m0, _) => m0 <= m' | None => True end | None => False end).
        { subst b'. destruct b as [(m, l)|]; [|split; auto; lia].
          destruct (Z.ltb_spec m (val v d)); split; lia. }
        assert (G2 : b' = b \/ b' = Some (val v d, mkLit v d true)).
        { subst b'. destruct b as [(m, l)|]; auto. destruct (m <? val v d); auto. }
        specialize (IH b' Hb'). fold b'.
        destruct (fold_left (bk_step s) xs b') as [(m, l)|].
        * destruct IH as (I1 & I2 & I3 & I4 & I5). split; auto. split; auto.
          destruct b' as [(m', l')|]; [|tauto]. destruct G1 as (G1 & G1').
          split; [|split].
          -- destruct I3 as [(I3 & I3')|I3]; auto. injection I3 as <- <-.
             destruct G2 as [G2|G2]; auto. injection G2 as -> ->. left. simpl. auto.
          -- intros v' d' [E|Hi]; auto. injection E as <- <-. intros; lia.
          -- destruct b as [(m0, l0)|]; auto. lia.
        * destruct IH as (I1 & _). rewrite I1 in G1. tauto.
      + assert (C : ~ (VAL (tr s) v = -1 /\ ASG (tr s) v d = Un)).
        { rewrite <- candidate_iff. congruence. }
        specialize (IH b Hb). destruct (fold_left (bk_step s) xs b) as [(m, l)|].
        * destruct IH as (I1 & I2 & I3 & I4 & I5). repeat split; auto.
          -- destruct I3 as [(I3 & I3')|I3]; auto.
          -- intros v' d' [E|Hi]; auto. injection E as <- <-. tauto.
        * destruct IH as (I1 & I2). split; auto. intros v' d' [E|Hi]; auto.
          injection E as <- <-. auto. }
  specialize (G (atoms_from (tr s) 0) None I).
  destruct (fold_left (bk_step s) (atoms_from (tr s) 0) None) as [(m, l)|].
  - right. destruct G as (G1 & G2 & [(G3 & G4 & G5)|G3] & G6 & _); [|discriminate].
    split; [split; auto; apply in_atoms0; auto|]. split; auto.
    intros v d (R & V & U).
    assert (El : l = mkLit (lvar l) (lval l) true) by (destruct l; simpl in *; congruence).
    rewrite El. unfold neg. simpl. fold (val v d). fold (val (lvar l) (lval l)). rewrite <- G1.
    apply G6; auto. apply in_atoms0; auto.
  - left. split; auto. destruct G as (_ & G). intros v d (R & V & U).
    apply (G v d); auto. apply in_atoms0; auto.
Qed.

(** *** Lazy *)

Lemma lazy_lits_ok t c :
  DOM t 0 = 0 -> (forall l, In l c -> lrange t l) ->
  exists o, lazy_lits t c = Ok o /\
    match o with
    | Some l => In l c /\ lit_un t l = true
    | None => countb (lit_un t) c = 0%nat
    end.
Proof.
  intros D0. induction c as [|l c IH]; intro R.
  - exists None. auto.
  - simpl. unfold sat. rewrite chk_ok by (auto; apply R; left; auto). cbn [bind].
    destruct IH as (o & E & P). { intros; apply R; right; auto. }
    rewrite countb_cons. rewrite E.
    destruct (lit_cases t l) as [(-> & -> & _)|[(-> & U & _)|(-> & -> & _)]]; [| rewrite U|].
    + exists o. destruct o; auto. destruct P; auto.
    + exists (Some l). auto.
    + exists o. destruct o; auto. destruct P; auto.
Qed.

Lemma choose_lazy_ok s :
  DOM (tr s) 0 = 0 -> cls_ok (tr s) (cl s) ->
  exists l, choose_lazy s = Ok l /\
    ((lvar l = -1 /\ forall n c, nth_error (cl s) n = Some c -> clev s n = -1 ->
                       countb (lit_un (tr s)) c = 0%nat) \/
     lrange (tr s) l /\ lit_un (tr s) l = true /\
     exists n c, nth_error (cl s) n = Some c /\ clev s n = -1 /\ In l c).
Proof.
  intros D0 W. unfold choose_lazy.
  assert (G : forall cs pre, cl s = pre ++ cs -> exists l, lazy_clauses s (length pre) cs = Ok l /\
    ((lvar l = -1 /\ forall n c, nth_error cs n = Some c -> clev s (length pre + n) = -1 ->
                       countb (lit_un (tr s)) c = 0%nat) \/
     lrange (tr s) l /\ lit_un (tr s) l = true /\
     exists n c, nth_error (cl s) n = Some c /\ clev s n = -1 /\ In l c)).
  { induction cs as [|c cs IH]; intros pre Ep.
    - exists nolit. split; auto. left. split; auto. intros [|n] c; discriminate.
    - simpl. destruct (IH (pre ++ [c])) as (l & E & P).
      { rewrite <- app_assoc. auto. }
      assert (Wc : In c (cl s)) by (rewrite Ep; apply in_or_app; right; left; auto).
      rewrite app_length in E, P. simpl in E, P. rewrite Nat.add_1_r in E, P.
      destruct (clev s (length pre) =? -1) eqn:Cc.
      + destruct (lazy_lits_ok (tr s) c D0) as (o & Eo & Po).
        { intros l' Hl'. apply (W c); auto. }
        rewrite Eo. cbn [bind]. destruct o as [l'|].
        * exists l'. split; auto. right. split; [apply (W c); tauto|]. split; [tauto|].
          exists (length pre), c. split; [|split; [apply Z.eqb_eq; auto|tauto]].
          rewrite Ep. rewrite nth_error_app2 by lia. rewrite Nat.sub_diag. auto.
        * exists l. split; auto. destruct P as [(P1 & P2)|P]; auto. left. split; auto.
          intros [|n] c' Hn Cn; simpl in Hn; [congruence|].
          apply (P2 n c' Hn). rewrite <- Cn. f_equal. lia.
      + exists l. split; auto. destruct P as [(P1 & P2)|P]; auto. left. split; auto.
        apply Z.eqb_neq in Cc.
        intros [|n] c' Hn Cn; simpl in Hn; [rewrite Nat.add_0_r in Cn; congruence|].
        apply (P2 n c' Hn). rewrite <- Cn. f_equal. lia. }
  destruct (G (cl s) []) as (l & E & P); auto. exists l. split; auto.
Qed.
