(** * Counter-based propagation keeps the clause counters exact *)

From Verif Require Import Spec Outcome State ModelCounter ModelLearn Base Trail Reduce.

(** Occurrence lists match the clauses. *)
Record SI (s : state) : Prop := mkSI {
  si_occ : forall n c l, nth_error (cl s) n = Some c -> nocc n (rec s l) = occ l c;
  si_id : forall l n, In n (rec s l) -> (n < length (cl s))%nat;
  si_ok : cls_ok (tr s) (cl s);
  si_ne : ~ In [] (cl s)
}.

(** Counters of one clause: not satisfied, with the number of unassigned occurrences; or
    satisfied, with the level at which it first became so. *)
Definition ci (t : trail) (c : clause) (nu le : Z) : Prop :=
  (le = -1 /\ (forall l, In l c -> lit_true t l = false) /\ nu = Z.of_nat (countb (lit_un t) c)) \/
  (0 <= le /\ nu = 0 /\ (exists l, In l c /\ lit_true t l = true /\ llev t l = le) /\
   forall l, In l c -> lit_true t l = true -> le <= llev t l).

Definition CI (s : state) : Prop :=
  forall n c, nth_error (cl s) n = Some c -> ci (tr s) c (num s n) (clev s n).

(** Pending unit clauses and conflicts; [xs] are clauses taken from the list of pending
    clauses but not yet acted on. *)
Record UI (xs : list nat) (s : state) : Prop := mkUI {
  ui_id : forall n, In n (ulist s) -> (n < length (cl s))%nat;
  ui_le : forall n, In n (ulist s) -> clev s n = -1 -> num s n <= 1;
  ui_two : conflict s = false -> forall n c, nth_error (cl s) n = Some c -> clev s n = -1 ->
             2 <= num s n \/ num s n = 1 /\ (In n (ulist s) \/ In n xs);
  ui_conf : conflict s = true ->
             (confcl s < length (cl s))%nat /\ clev s (confcl s) = -1 /\ num s (confcl s) = 0
}.

Definition JC (xs : list nat) (s : state) : Prop := SI s /\ CI s /\ UI xs s.

Lemma SI_in s n c l : SI s -> nth_error (cl s) n = Some c -> (In n (rec s l) <-> In l c).
Proof.
  intros H Hn. rewrite <- nocc_pos, <- occ_pos. rewrite (si_occ _ H n c l Hn). tauto.
Qed.

Lemma SI_get s l n : SI s -> In n (rec s l) -> exists c, nth_error (cl s) n = Some c /\ In l c.
Proof.
  intros H Hn. pose proof (si_id _ H l n Hn) as L.
  destruct (lt_nth_error (cl s) n L) as (c & Hc). exists c; split; auto.
  apply (SI_in s n c l); auto.
Qed.

(** ** satisfyClauses *)

Lemma dec_fold c s : DOM (tr s) 0 = 0 -> (forall l, In l c -> lrange (tr s) l) ->
  exists z, foldM dec_count c s = Ok (set_cnt s z).
Proof.
  intros D0 R.
  destruct (foldM_inv dec_count (fun s' => exists z, s' = set_cnt s z) c s) as (s' & E & z & ->).
  - exists (cnt s). destruct s; reflexivity.
  - intros l s' Hl (z & ->). unfold dec_count. simpl tr. rewrite chk_ok by auto. cbn [bind].
    destruct (lit_un (tr s) l); eexists; split; try reflexivity; eexists; reflexivity.
  - exists z; auto.
Qed.

Lemma satisfy_ok c s l :
  SI s -> DOM (tr s) 0 = 0 -> 0 <= level s -> lrange (tr s) l ->
  exists x y z, satisfy_clauses c s l = Ok (set_cnt (set_clev (set_num s x) y) z) /\
    forall n, (In n (rec s l) -> clev s n = -1 -> y n = level s /\ x n = 0) /\
              (~ In n (rec s l) \/ clev s n <> -1 -> y n = clev s n /\ x n = num s n).
Proof.
  intros H D0 L R. unfold satisfy_clauses. rewrite chk_ok by auto. cbn [bind].
  destruct (foldM_ind (satisfy_step c)
    (fun pre s' => exists x y z, s' = set_cnt (set_clev (set_num s x) y) z /\
       forall n, (In n pre -> clev s n = -1 -> y n = level s /\ x n = 0) /\
                 (~ In n pre \/ clev s n <> -1 -> y n = clev s n /\ x n = num s n))
    (rec s l) s) as (s' & E & x & y & z & -> & P).
  - exists (num s), (clev s), (cnt s). split; [destruct s; reflexivity|].
    intros n; split; [intros []|auto].
  - intros pre n suf s' Er (x & y & z & -> & P).
    assert (In n (rec s l)) as Hn by (rewrite Er; apply in_or_app; right; left; auto).
    destruct (SI_get s l n H Hn) as (cls & Hc & _).
    unfold satisfy_step, getcl. simpl. rewrite Hc. cbn [bind].
    destruct (y n =? -1) eqn:Ey.
    + apply Z.eqb_eq in Ey.
      assert (Cn : clev s n = -1 /\ ~ In n pre).
      { destruct (P n) as (P1 & P2). destruct (Z.eq_dec (clev s n) (-1)) as [Cn|Cn].
        - split; auto. intro Ip. destruct (P1 Ip Cn). lia.
        - destruct P2; auto. congruence. }
      assert (PP : forall m, (In m (pre ++ [n]) -> clev s m = -1 ->
                     updn y n (level s) m = level s /\ updn x n 0 m = 0) /\
                (~ In m (pre ++ [n]) \/ clev s m <> -1 ->
                     updn y n (level s) m = clev s m /\ updn x n 0 m = num s m)).
      { intro m. destruct (Nat.eq_dec m n) as [->|N].
        - rewrite !updn_same. split; auto. intros [N|N]; [|tauto].
          exfalso. apply N. apply in_or_app; right; left; auto.
        - rewrite !updn_other by auto. destruct (P m) as (P1 & P2). split.
          + intros I Cm. apply in_app_or in I. destruct I as [I|[I|[]]]; [auto|congruence].
          + intros [I|I]; apply P2; auto. left. intro I'. apply I. apply in_or_app; auto. }
      destruct (is_bk c).
      * set (s1 := set_num (set_clev (set_cnt (set_clev (set_num s x) y) z) (updn y n (level s)))
                     (updn x n 0)).
        destruct (dec_fold cls s1) as (z' & Ez).
        { exact D0. }
        { intros l' Hl'. apply (si_ok _ H cls); auto. eapply nth_error_In; eauto. }
        exists (set_cnt s1 z'). split; [exact Ez|].
        exists (updn x n 0), (updn y n (level s)), z'. split; [reflexivity|exact PP].
      * eexists. split; [reflexivity|].
        exists (updn x n 0), (updn y n (level s)), z. split; [reflexivity|exact PP].
    + eexists. split; [reflexivity|].
      exists x, y, z. split; [reflexivity|]. apply Z.eqb_neq in Ey.
      intro m. destruct (P m) as (P1 & P2). split.
      * intros I Cm. apply in_app_or in I. destruct I as [I|[<-|[]]]; [auto|].
        destruct (in_dec Nat.eq_dec n pre) as [I|I]; [auto|].
        destruct P2; auto. congruence.
      * intros [I|I]; apply P2; auto. left. intro I'. apply I. apply in_or_app; auto.
  - exists x, y, z. auto.
Qed.

(** ** removeLiteral *)

Lemma nocc_snoc n pre m : nocc n (pre ++ [m]) = (nocc n pre + if Nat.eqb n m then 1 else 0)%nat.
Proof. unfold nocc. rewrite countb_app. f_equal. unfold countb; simpl. destruct (Nat.eqb n m); auto. Qed.

Lemma remove_ok s l :
  SI s -> DOM (tr s) 0 = 0 -> lrange (tr s) l ->
  exists x u b k, remove_literal s l = Ok (set_confcl (set_conflict (set_ulist (set_num s x) u) b) k) /\
    (forall n, x n = if clev s n =? -1 then num s n - Z.of_nat (nocc n (rec s l)) else num s n) /\
    (forall n, In n u <-> In n (ulist s) \/
        clev s n = -1 /\ 2 <= num s n /\ num s n - Z.of_nat (nocc n (rec s l)) <= 1) /\
    (b = false -> conflict s = false /\ forall n, clev s n = -1 -> 1 <= num s n ->
        1 <= num s n - Z.of_nat (nocc n (rec s l))) /\
    (b = true -> conflict s = true /\ k = confcl s \/
        clev s k = -1 /\ 1 <= num s k /\ num s k - Z.of_nat (nocc k (rec s l)) <= 0) /\
    (conflict s = true -> b = true).
Proof.
  intros H D0 R. unfold remove_literal. rewrite chk_ok by auto. cbn [bind].
  set (Q := fun (pre : list nat) (s' : state) => exists x u b k,
    s' = set_confcl (set_conflict (set_ulist (set_num s x) u) b) k /\
    (forall n, x n = if clev s n =? -1 then num s n - Z.of_nat (nocc n pre) else num s n) /\
    (forall n, In n u <-> In n (ulist s) \/
        clev s n = -1 /\ 2 <= num s n /\ num s n - Z.of_nat (nocc n pre) <= 1) /\
    (b = false -> conflict s = false /\ forall n, clev s n = -1 -> 1 <= num s n ->
        1 <= num s n - Z.of_nat (nocc n pre)) /\
    (b = true -> conflict s = true /\ k = confcl s \/
        clev s k = -1 /\ 1 <= num s k /\ num s k - Z.of_nat (nocc k pre) <= 0) /\
    (conflict s = true -> b = true)).
  destruct (foldM_ind remove_step Q (rec s l) s) as (s' & E & x & u & b & k & -> & P).
  - exists (num s), (ulist s), (conflict s), (confcl s).
    split; [destruct s; reflexivity|].
    assert (N0 : forall n, nocc n [] = 0%nat) by reflexivity.
    repeat split; auto.
    + intro n. rewrite N0. destruct (clev s n =? -1); lia.
    + rewrite N0. intros [I|I]; auto. lia.
    + intros n _ Hn. rewrite N0. lia.
  - intros pre n suf s' Er (x & u & b & k & -> & P1 & P2 & P3 & P4 & P5).
    assert (In n (rec s l)) as Hn by (rewrite Er; apply in_or_app; right; left; auto).
    destruct (SI_get s l n H Hn) as (cls & Hc & _).
    unfold remove_step, getcl. simpl. rewrite Hc. cbn [bind].
    destruct (clev s n =? -1) eqn:Ey.
    + apply Z.eqb_eq in Ey. pose proof (P1 n) as Xn. rewrite Ey in Xn. simpl in Xn.
      set (kk := x n - 1).
      set (u' := if kk =? 1 then n :: u else u).
      set (b' := if kk =? 0 then true else b).
      set (k' := if kk =? 0 then n else k).
      exists (set_confcl (set_conflict (set_ulist (set_num s (updn x n kk)) u') b') k').
      split.
      { subst u' b' k'. destruct (kk =? 1), (kk =? 0); reflexivity. }
      exists (updn x n kk), u', b', k'. split; [reflexivity|].
      repeat split.
      * intro m. rewrite nocc_snoc. destruct (Nat.eqb_spec m n) as [->|N].
        -- rewrite updn_same. rewrite Ey. simpl. subst kk. lia.
        -- rewrite updn_other by auto. rewrite P1. destruct (clev s m =? -1); lia.
      * intro I. assert (I' : n0 = n /\ kk = 1 \/ In n0 u).
        { subst u'. destruct (kk =? 1) eqn:E1; auto. destruct I as [<-|I]; auto.
          left; split; auto. apply Z.eqb_eq; auto. }
        rewrite nocc_snoc. destruct I' as [(-> & K1)|I'].
        -- right. rewrite Nat.eqb_refl. subst kk. repeat split; auto; lia.
        -- apply P2 in I'. destruct I' as [I'|(I1 & I2 & I3)]; auto. right. repeat split; auto.
           destruct (Nat.eqb n0 n); lia.
      * rewrite nocc_snoc. intros [I|(I1 & I2 & I3)].
        -- assert (In n0 u) by (apply P2; auto). subst u'. destruct (kk =? 1); auto. right; auto.
        -- destruct (Nat.eqb_spec n0 n) as [->|N].
           ++ subst u'. destruct (kk =? 1) eqn:E1; [left; auto|].
              apply Z.eqb_neq in E1. apply P2. right. repeat split; auto. subst kk. lia.
           ++ assert (In n0 u) by (apply P2; right; repeat split; auto; lia).
              subst u'. destruct (kk =? 1); auto. right; auto.
      * subst b'. destruct (kk =? 0); [discriminate|]. apply P3; auto.
      * intros m Cm Nm. rewrite nocc_snoc. subst b'. destruct (kk =? 0) eqn:E0; [discriminate|].
        apply Z.eqb_neq in E0. destruct (P3 H0) as (_ & P3').
        specialize (P3' m Cm Nm). destruct (Nat.eqb_spec m n) as [->|N]; [|lia]. subst kk. lia.
      * intro B. subst b' k'. rewrite nocc_snoc. destruct (kk =? 0) eqn:E0.
        -- apply Z.eqb_eq in E0. right. rewrite Nat.eqb_refl. subst kk. repeat split; auto; try lia.
        -- destruct (P4 B) as [X|(X1 & X2 & X3)]; auto. right. repeat split; auto.
           destruct (Nat.eqb k n); lia.
      * intro C. subst b'. destruct (kk =? 0); auto.
    + apply Z.eqb_neq in Ey.
      eexists. split; [reflexivity|]. exists x, u, b, k. split; [reflexivity|].
      assert (SAME : forall m, clev s m = -1 -> nocc m (pre ++ [n]) = nocc m pre).
      { intros m Cm. rewrite nocc_snoc. destruct (Nat.eqb_spec m n); [congruence|lia]. }
      repeat split; auto.
      * intro m. rewrite P1. destruct (clev s m =? -1) eqn:Em; auto. apply Z.eqb_eq in Em.
        rewrite SAME; auto.
      * intro I. apply P2 in I. destruct I as [I|(I1 & I2 & I3)]; auto.
        rewrite SAME by auto; auto.
      * intro I. apply P2. destruct I as [I|(I1 & I2 & I3)]; auto.
        rewrite SAME in I3 by auto; auto.
      * apply P3; auto.
      * intros m Cm Nm. rewrite SAME by auto. apply P3; auto.
      * intro B. destruct (P4 B) as [X|(X1 & X2 & X3)]; auto. rewrite SAME by auto. auto.
  - exists x, u, b, k. auto.
Qed.

(** ** Assigning one atom *)

Lemma tr_mark c s v d a :
  exists z, mark c s v d a = set_tr (set_cnt s z) (markT (tr s) (level s) (uclause s) v d a).
Proof.
  unfold mark. destruct (is_bk c); [eexists; reflexivity|exists (cnt s); destruct s; reflexivity].
Qed.

Section OneAtom.
Variables (t : trail) (lev : Z) (r : reason) (v d : Z) (a : aval).
Hypothesis U : ASG t v d = Un.
Hypothesis NA : a <> Un.
Let l := mkLit v d (match a with Pos => true | _ => false end).
Let t' := markT t lev r v d a.

Lemma one_true_l : lit_true t' l = true.
Proof.
  apply lit_true_asg. unfold t', l; simpl. rewrite upd2_same. destruct a; auto. congruence.
Qed.

Lemma one_llev : llev t' l = lev.
Proof. unfold llev, t', l; simpl. apply upd2_same. Qed.

Lemma one_same x : lvar x <> v \/ lval x <> d -> ASG t' (lvar x) (lval x) = ASG t (lvar x) (lval x).
Proof. intro N. unfold t'; simpl. apply upd2_other; auto. Qed.

Lemma one_cases x : x = l \/ x = neg l \/ (lvar x <> v \/ lval x <> d).
Proof.
  destruct x as [v' d' e]. unfold l, neg; simpl.
  destruct (Z.eq_dec v' v) as [->|]; auto. destruct (Z.eq_dec d' d) as [->|]; auto.
  destruct e, a; auto.
Qed.

Lemma one_lneg : neg l <> l.
Proof. unfold neg, l; simpl. destruct a; simpl; congruence. Qed.

Lemma one_true x : lit_true t' x = (lit_true t x || lit_eqb x l).
Proof.
  destruct (one_cases x) as [->|[->|N]].
  - rewrite one_true_l, lit_eqb_refl, orb_true_r; auto.
  - assert (F1 : lit_true t' (neg l) = false).
    { rewrite lit_true_neg. destruct (lit_cases t' l) as [X|[X|X]]; try tauto; rewrite one_true_l in X; intuition congruence. }
    assert (F2 : lit_true t (neg l) = false).
    { unfold lit_true; simpl. rewrite U; auto. }
    rewrite F1, F2. destruct (lit_eqb_spec (neg l) l); auto. exfalso; apply one_lneg; auto.
  - unfold lit_true. rewrite (one_same x N).
    destruct (lit_eqb_spec x l) as [->|_]; [|rewrite orb_false_r; auto].
    unfold l in N; simpl in N. lia.
Qed.

Lemma one_un x : x <> l -> (if lit_un t x then 1 else 0)%nat =
  ((if lit_un t' x then 1 else 0) + (if lit_eqb (neg l) x then 1 else 0))%nat.
Proof.
  intro Nx. destruct (one_cases x) as [->|[->|N]]; [congruence| |].
  - rewrite lit_eqb_refl. assert (U1 : lit_un t (neg l) = true) by (apply lit_un_iff; auto).
    assert (U2 : lit_un t' (neg l) = false).
    { apply lit_un_false_iff. unfold t', l; simpl. rewrite upd2_same. auto. }
    rewrite U1, U2. auto.
  - unfold lit_un. rewrite (one_same x N).
    destruct (lit_eqb_spec (neg l) x) as [<-|_]; [|lia].
    unfold l in N; simpl in N. lia.
Qed.

Lemma one_llev_old x : lit_true t x = true -> llev t' x = llev t x.
Proof.
  intro H. apply (ext_llev t t'); [apply ext_mark; auto|]. apply lit_true_un; auto.
Qed.

End OneAtom.

Lemma assign_atom_ok xs c s v d a :
  JC xs s -> bounded s -> 0 <= level s -> DOM (tr s) 0 = 0 ->
  (1 <= length (DST (tr s)))%nat ->
  range (tr s) v d -> ASG (tr s) v d = Un -> a <> Un ->
  exists s', assign_atom c s v d a = Ok s' /\ assign_post s v d a s' /\ JC xs s'.
Proof.
  intros (HS & HC & HU) HB L D0 _ R U NA.
  set (l := mkLit v d (match a with Pos => true | _ => false end)).
  unfold assign_atom. fold l.
  destruct (tr_mark c s v d a) as (z & ->).
  set (t' := markT (tr s) (level s) (uclause s) v d a).
  set (s1 := set_tr (set_cnt s z) t').
  assert (HS1 : SI s1) by (destruct HS; split; auto).
  destruct (satisfy_ok c s1 l) as (x & y & z' & E2 & P2); auto.
  rewrite E2. cbn [bind].
  set (s2 := set_cnt (set_clev (set_num s1 x) y) z').
  assert (HS2 : SI s2) by (destruct HS; split; auto).
  destruct (remove_ok s2 (neg l)) as (x' & u & b & k & E3 & Q1 & Q2 & Q3 & Q4 & Q5); auto.
  rewrite E3.
  set (s3 := set_confcl (set_conflict (set_ulist (set_num s2 x') u) b) k).
  exists s3. split; auto. split.
  { split; [reflexivity|]. split; [|split; reflexivity].
    split; try reflexivity. exact Q5. }
  simpl in P2. cbn [clev num set_cnt set_clev set_num s2] in Q1, Q2, Q3, Q4.
  change (rec s2) with (rec s) in *. change (rec s1) with (rec s) in *.
  change (ulist s2) with (ulist s) in *. change (conflict s2) with (conflict s) in *.
  change (confcl s2) with (confcl s) in *.
  assert (POST : forall n cls, nth_error (cl s) n = Some cls -> ci t' cls (x' n) (y n)).
  { intros n cls Hn. specialize (HC n cls Hn). destruct (P2 n) as (P2a & P2b).
    pose proof (SI_in s n cls l HS Hn) as Il.
    pose proof (Q1 n) as X1. rewrite (si_occ _ HS n cls (neg l) Hn) in X1.
    destruct HC as [(C1 & C2 & C3)|(C1 & C2 & (w & W1 & W2 & W3) & C4)].
    - destruct (in_dec lit_eq_dec l cls) as [I|I].
      + destruct P2a as (Y & X); [apply Il; auto|auto|].
        right. rewrite Y in X1 |- *. destruct (Z.eqb_spec (level s) (-1)); [lia|].
        rewrite X1, X. split; auto. split; auto. split.
        * exists l. split; auto. split; [apply one_true_l; auto|apply one_llev].
        * intros w Iw Tw. unfold t', l in *. rewrite (one_true (tr s) _ _ v d a U NA) in Tw.
          rewrite (C2 w Iw) in Tw. simpl in Tw. destruct (lit_eqb_spec w (mkLit v d (match a with Pos => true | _ => false end))) as [->|]; [|discriminate].
          rewrite one_llev. lia.
      + destruct P2b as (Y & X); [left; rewrite Il; auto|].
        left. rewrite Y, C1 in *. simpl in X1. split; auto. split.
        * intros w Iw. unfold t'. rewrite (one_true (tr s) _ _ v d a U NA).
          rewrite (C2 w Iw). simpl. destruct (lit_eqb_spec w (mkLit v d (match a with Pos => true | _ => false end))) as [->|]; auto.
          exfalso; apply I; auto.
        * rewrite X1, X, C3. unfold occ.
          rewrite (countb_sum (lit_un (tr s)) (lit_un t') (lit_eqb (neg l)) cls); [lia|].
          intros w Iw. apply one_un; auto. intro Ew. apply I. rewrite Ew in Iw; exact Iw.
    - destruct P2b as (Y & X); [right; lia|].
      right. rewrite Y in *. destruct (Z.eqb_spec (clev s n) (-1)); [lia|].
      rewrite X1, X. split; auto. split; auto. split.
      + exists w. split; auto. unfold t'. rewrite (one_true (tr s) _ _ v d a U NA), W2.
        split; auto. rewrite one_llev_old; auto.
      + intros w' Iw' Tw'. unfold t' in *. rewrite (one_true (tr s) _ _ v d a U NA) in Tw'.
        apply orb_true_iff in Tw'. destruct Tw' as [Tw'|Tw'].
        * rewrite one_llev_old; auto.
        * destruct (lit_eqb_spec w' (mkLit v d (match a with Pos => true | _ => false end))) as [->|]; [|discriminate].
          rewrite one_llev. rewrite <- W3.
          assert (Rw : lrange (tr s) w) by (apply (si_ok _ HS cls); auto; eapply nth_error_In; eauto).
          apply (HB _ _ Rw). apply lit_true_as; auto. }
  (* nothing happens to a clause whose literals are all false *)
  assert (ZERO : forall n cls, nth_error (cl s) n = Some cls -> clev s n = -1 -> num s n = 0 ->
            ~ In n (rec s l) /\ nocc n (rec s (neg l)) = 0%nat).
  { intros n cls Hn Cn Nn. specialize (HC n cls Hn). destruct HC as [(C1 & C2 & C3)|(C1 & _)]; [|lia].
    assert (Z0 : countb (lit_un (tr s)) cls = 0%nat) by lia.
    rewrite countb_zero in Z0. split.
    - rewrite (SI_in s n cls l HS Hn). intro I. specialize (Z0 l I).
      apply lit_un_false_iff in Z0. apply Z0. auto.
    - rewrite (si_occ _ HS n cls (neg l) Hn). destruct (Nat.eq_0_gt_0_cases (occ (neg l) cls)) as [E|E]; auto.
      apply occ_pos in E. specialize (Z0 _ E). apply lit_un_false_iff in Z0. exfalso. apply Z0. auto. }
  (* clauses still unsatisfied were so before *)
  assert (BACK : forall n, y n = -1 -> clev s n = -1 /\ x n = num s n /\ x' n = num s n - Z.of_nat (nocc n (rec s (neg l)))).
  { intros n Y. destruct (P2 n) as (P2a & P2b). specialize (Q1 n). rewrite Y in Q1. simpl in Q1.
    destruct (Z.eq_dec (clev s n) (-1)) as [Cn|Cn].
    - destruct (in_dec Nat.eq_dec n (rec s l)) as [I|I].
      + destruct P2a as (Y' & _); auto. change (level s1) with (level s) in Y'. lia.
      + destruct P2b as (Y' & X'); auto. change (num s1) with (num s) in *. repeat split; auto. congruence.
    - destruct P2b as (Y' & X'); auto. change (clev s1) with (clev s) in *. congruence. }
  split; [destruct HS; split; auto|].
  split; [exact POST|].
  split; simpl; change (cl s2) with (cl s); change (cl s1) with (cl s).
  - intros n In_. apply Q2 in In_. destruct In_ as [I|(I1 & I2 & I3)]; [apply (ui_id _ _ HU); auto|].
    assert (1 <= nocc n (rec s (neg l)))%nat by lia.
    apply (si_id _ HS (neg l)). apply nocc_pos. lia.
  - intros n In_ Y. destruct (BACK n Y) as (C & X & X'). change (y n) with (y n) in *.
    rewrite X'. apply Q2 in In_. destruct In_ as [I|(I1 & I2 & I3)].
    + pose proof (ui_le _ _ HU n I C). lia.
    + lia.
  - intros B n cls Hn Y. destruct (BACK n Y) as (C & X & X').
    destruct (Q3 B) as (Cf & Q3'). specialize (Q3' n Y).
    destruct (ui_two _ _ HU Cf n cls Hn C) as [N2|(N1 & I1)].
    + destruct (Z.le_gt_cases 2 (x' n)); auto. right. split; [lia|].
      left. apply Q2. right. lia.
    + right. split; [lia|]. destruct I1; auto. left. apply Q2; auto.
  - intro B. destruct (Q4 B) as [(Cf & ->)|(K1 & K2 & K3)].
    + destruct (ui_conf _ _ HU Cf) as (F1 & F2 & F3).
      destruct (lt_nth_error _ _ F1) as (cls & Hc).
      destruct (ZERO _ _ Hc F2 F3) as (Z1 & Z2).
      destruct (P2 (confcl s)) as (_ & P2b). destruct P2b as (Y & X); auto.
      change (clev s1) with (clev s) in Y. change (num s1) with (num s) in X.
      split; auto. split; [congruence|]. rewrite Q1, Z2, Y, F2, X, F3. reflexivity.
    + destruct (BACK k K1) as (C & X & X').
      assert (1 <= nocc k (rec s (neg l)))%nat by lia.
      assert (Kl : (k < length (cl s))%nat) by (apply (si_id _ HS (neg l)); apply nocc_pos; lia).
      split; auto. split; auto.
      destruct (lt_nth_error _ _ Kl) as (cls & Hc).
      destruct (POST k cls Hc) as [(_ & _ & Q)|(Q & _)]; lia.
Qed.

Lemma JC_push xs s l : JC xs s -> JC xs (push_dst s l).
Proof. intros ([] & HC & []). split; [split; auto|]. split; [exact HC|split; auto]. Qed.
Lemma JC_ent xs s n : JC xs s -> JC xs (set_entails s n).
Proof. intros ([] & HC & []). split; [split; auto|]. split; [exact HC|split; auto]. Qed.
Lemma JC_ucl xs s r : JC xs s -> JC xs (set_uclause s r).
Proof. intros ([] & HC & []). split; [split; auto|]. split; [exact HC|split; auto]. Qed.

Lemma reduce_theory_ok xs c s l :
  JC xs s -> TB (tr s) (level s) (fun _ => False) -> TD (tr s) -> 0 <= level s ->
  lrange (tr s) l -> ASG (tr s) (lvar l) (lval l) = Un ->
  exists s', reduce_theory c s l = Ok s' /\ JC xs s' /\ fr s s' /\ ext (tr s) (tr s') /\ newlev (tr s) (level s) (tr s') /\ TD (tr s') /\
    TB (tr s') (level s) (fun u => conflict s' = true) /\ lit_true (tr s') l = true /\
    (unass (tr s') < unass (tr s))%nat /\
    (forall cls, TR (tr s) cls ->
       pre_reason (tr s) cls (level s) (uclause s) l -> TR (tr s') cls) /\
    (forall a, legalT a (tr s) -> agree a (tr s) -> lit_holds a l -> agree a (tr s')).
Proof.
  intros HJ H D L R U.
  assert (V : VAL (tr s) (lvar l) = -1) by (eapply un_noval; eauto).
  destruct (greduce_ok (assign_atom c) (JC xs) (assign_atom_ok xs c) (JC_push xs) (JC_ent xs) (JC_ucl xs) s l)
    as (s' & E & HH); auto.
  exists s'. split; auto.
Qed.
