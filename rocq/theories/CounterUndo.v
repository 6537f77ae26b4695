(** * undoTheory cuts the trail back and restores the counters *)

From Verif Require Import Spec Outcome State ModelCounter ModelLearn Base Trail Reduce Counter.

Definition atom (l : lit) : Z * Z := (lvar l, lval l).

Lemma atom_dec (a b : Z * Z) : {a = b} + {a <> b}.
Proof. decide equality; apply Z.eq_dec. Qed.

Definition inb (a : Z * Z) (l : list (Z * Z)) : bool := if in_dec atom_dec a l then true else false.

Lemma inb_iff a l : inb a l = true <-> In a l.
Proof. unfold inb; destruct (in_dec atom_dec a l); split; auto; discriminate. Qed.

Lemma inb_snoc a l b : inb a (l ++ [b]) = inb a l || (if atom_dec a b then true else false).
Proof.
  apply eq_true_iff_eq. rewrite orb_true_iff, !inb_iff, in_app_iff; simpl.
  destruct (atom_dec a b) as [->|N]; intuition; try congruence; try discriminate.
Qed.

(** The literal of an assigned atom that is false / true. *)
Definition flit (t : trail) (v d : Z) : lit :=
  match ASG t v d with Neg => mkLit v d true | _ => mkLit v d false end.
Definition tlit (t : trail) (v d : Z) : lit :=
  match ASG t v d with Neg => mkLit v d false | _ => mkLit v d true end.

Section Undo.
Variables (c : cfg) (s : state) (k lev : Z) (ex : Z -> Prop).
Let t := tr s.
Hypothesis HS : SI s.
Hypothesis HC : CI s.
Hypothesis HB : TB t lev ex.
Hypothesis HD : TD t.
Hypothesis Hk : -1 <= k.

Lemma above_as v d : range t v d -> k < ALEV t v d -> ASG t v d <> Un.
Proof. intros R K U. rewrite (tb_un _ _ _ HB v d R U) in K. lia. Qed.

(** ** First pass *)

(** occurrences whose atom was visited and that come back as unassigned *)
Definition undone (pre : list (Z * Z)) (l : lit) : bool :=
  inb (atom l) pre && (k <? llev t l) && lit_eqb l (flit t (lvar l) (lval l)).

Lemma undone_snoc pre v d cls : ~ In (v, d) pre -> k < ALEV t v d ->
  countb (undone (pre ++ [(v, d)])) cls = (countb (undone pre) cls + occ (flit t v d) cls)%nat.
Proof.
  intros N K. unfold occ. apply countb_sum. intros l _.
  unfold undone. rewrite inb_snoc.
  destruct (lit_eqb_spec (flit t v d) l) as [<-|Nl].
  - assert (A1 : lvar (flit t v d) = v) by (unfold flit; destruct (ASG t v d); auto).
    assert (A2 : lval (flit t v d) = d) by (unfold flit; destruct (ASG t v d); auto).
    unfold atom, llev. rewrite A1, A2.
    destruct (inb (v, d) pre) eqn:E; [apply inb_iff in E; contradiction|].
    destruct (atom_dec (v, d) (v, d)) as [_|X]; [|congruence].
    rewrite lit_eqb_refl. apply Z.ltb_lt in K. rewrite K. auto.
  - destruct (atom_dec (atom l) (v, d)) as [E|E].
    + inversion E as [[E1 E2]]. rewrite !E1, !E2 in *.
      destruct (inb (v, d) pre) eqn:E3; [apply inb_iff in E3; unfold atom in E; rewrite <- E in N; rewrite E in N; contradiction|].
      rewrite <- E1 in Nl at 1. destruct (lit_eqb_spec l (flit t v d)) as [Y|Y].
      * exfalso. apply Nl. rewrite E1. auto.
      * unfold atom in E. replace (inb (atom l) pre) with false; [|unfold atom; rewrite E; auto].
        rewrite !andb_false_r. auto.
    + rewrite orb_false_r. lia.
Qed.

Lemma undone_skip pre v d cls : ~ k < ALEV t v d ->
  countb (undone (pre ++ [(v, d)])) cls = countb (undone pre) cls.
Proof.
  intros K. apply countb_ext. intros l _. unfold undone. rewrite inb_snoc.
  destruct (atom_dec (atom l) (v, d)) as [E|E]; [|rewrite orb_false_r; auto].
  inversion E as [[E1 E2]]. unfold llev. rewrite E1, E2.
  assert (X : (k <? ALEV t v d) = false) by (apply Z.ltb_ge; lia). rewrite X.
  rewrite !andb_false_r. auto.
Qed.

Lemma add_ok s1 x z l :
  s1 = set_cnt (set_num s x) z -> lrange t l ->
  exists x' z', add_literal c s1 l = Ok (set_cnt (set_num s x') z') /\
    forall n, x' n = if clev s n =? -1 then x n + Z.of_nat (nocc n (rec s l)) else x n.
Proof.
  intros -> R. unfold add_literal. rewrite chk_ok by (auto; apply HB). cbn [bind].
  change (rec (set_cnt (set_num s x) z) l) with (rec s l).
  destruct (foldM_ind (add_step c l)
    (fun pre s' => exists x' z', s' = set_cnt (set_num s x') z' /\
       forall n, x' n = if clev s n =? -1 then x n + Z.of_nat (nocc n pre) else x n)
    (rec s l) (set_cnt (set_num s x) z)) as (s' & E & x' & z' & -> & P).
  - exists x, z. split; auto. intro n. change (nocc n []) with 0%nat.
    destruct (clev s n =? -1); lia.
  - intros pre n suf s' Er (x' & z' & -> & P).
    assert (In n (rec s l)) as Hn by (rewrite Er; apply in_or_app; right; left; auto).
    destruct (SI_get s l n HS Hn) as (cls & Hc & _).
    unfold add_step, getcl. simpl. rewrite Hc. cbn [bind].
    destruct (clev s n =? -1) eqn:Ey.
    + exists (set_cnt (set_num s (updn x' n (x' n + 1))) (if is_bk c then updl z' l (z' l + 1) else z')).
      split; [destruct (is_bk c); reflexivity|].
      eexists _, _. split; [reflexivity|].
      intro m. rewrite nocc_snoc. destruct (Nat.eqb_spec m n) as [->|N].
      * rewrite updn_same. rewrite P, Ey. lia.
      * rewrite updn_other by auto. rewrite P. destruct (clev s m =? -1); lia.
    + eexists. split; [reflexivity|]. exists x', z'. split; [reflexivity|].
      intro m. rewrite P, nocc_snoc. destruct (Nat.eqb_spec m n) as [->|N].
      * rewrite Ey. auto.
      * destruct (clev s m =? -1); lia.
  - exists x', z'. auto.
Qed.

Lemma pass1 :
  exists x z, foldM (undo1 c k) (atoms_from t 1) s = Ok (set_cnt (set_num s x) z) /\
    forall n cls, nth_error (cl s) n = Some cls ->
      x n = if clev s n =? -1 then num s n + Z.of_nat (countb (undone (atoms_from t 1)) cls)
            else num s n.
Proof.
  destruct (foldM_ind (undo1 c k)
    (fun pre s' => exists x z, s' = set_cnt (set_num s x) z /\
       forall n cls, nth_error (cl s) n = Some cls ->
         x n = if clev s n =? -1 then num s n + Z.of_nat (countb (undone pre) cls) else num s n)
    (atoms_from t 1) s) as (s' & E & x & z & -> & P).
  - exists (num s), (cnt s). split; [destruct s; reflexivity|].
    intros n cls Hn. assert (Z0 : countb (undone []) cls = 0%nat) by (apply countb_zero; auto).
    rewrite Z0. destruct (clev s n =? -1); lia.
  - intros pre (v & d) suf s' Ea (x & z & -> & P).
    assert (R : range t v d).
    { apply in_atoms1. rewrite Ea. apply in_or_app; right; left; auto. }
    assert (N : ~ In (v, d) pre).
    { pose proof (nodup_atoms t 1) as ND. rewrite Ea in ND. apply NoDup_remove_2 in ND.
      intro I. apply ND. apply in_or_app; auto. }
    unfold undo1. simpl. fold t. destruct (k <? ALEV t v d) eqn:K.
    + apply Z.ltb_lt in K.
      destruct (add_ok (set_cnt (set_num s x) z) x z (flit t v d)) as (x' & z' & E1 & P1); auto.
      { unfold flit; destruct (ASG t v d); exact R. }
      exists (set_cnt (set_num s x') z'). split.
      { unfold flit in E1. destruct (ASG t v d); exact E1. }
      exists x', z'. split; auto. intros n cls Hn.
      rewrite P1, (P n cls Hn), (si_occ _ HS n cls _ Hn).
      rewrite undone_snoc by auto. destruct (clev s n =? -1); lia.
    + eexists. split; [reflexivity|]. exists x, z. split; auto. intros n cls Hn.
      rewrite undone_skip by (apply Z.ltb_ge in K; lia). apply P; auto.
  - exists x, z. auto.
Qed.

(** ** Second pass *)

(** partially cut trail *)
Record cutP (pre : list (Z * Z)) (t1 : trail) : Prop := mkCutP {
  cp_nv : NV t1 = NV t;
  cp_dom : DOM t1 = DOM t;
  cp_idx : AIDX t1 = AIDX t;
  cp_dst : DST t1 = DST t;
  cp_gone : forall v d, In (v, d) pre -> k < ALEV t v d ->
              ASG t1 v d = Un /\ ALEV t1 v d = -10 /\ CID t1 v d = RUndef;
  cp_kept : forall v d, (~ In (v, d) pre \/ ALEV t v d <= k) ->
              ASG t1 v d = ASG t v d /\ ALEV t1 v d = ALEV t v d /\ CID t1 v d = CID t v d;
  cp_val : forall v, (exists d, In (v, d) pre /\ k < ALEV t v d) -> VAL t1 v = -1;
  cp_val' : forall v, (forall d, In (v, d) pre -> ALEV t v d <= k) -> VAL t1 v = VAL t v
}.

Definition free (l : lit) : bool := (k <? llev t l) || lit_un t l.

(** clauses whose satisfaction is undone once the atoms [pre] have been visited *)
Definition hit (pre : list (Z * Z)) (l : lit) : bool :=
  inb (atom l) pre && (k <? llev t l) && lit_true t l.

Lemma inc_fold n cls t1 x y z pre :
  cutP pre t1 -> (forall l, In l cls -> lrange t l) ->
  exists x' z', foldM (inc_count c k n) cls (set_cnt (set_clev (set_num (set_tr s t1) x) y) z) =
    Ok (set_cnt (set_clev (set_num (set_tr s t1) x') y) z') /\
    forall m, x' m = if Nat.eqb m n then x n + Z.of_nat (countb free cls) else x m.
Proof.
  intros C R.
  destruct (foldM_ind (inc_count c k n)
    (fun p s' => exists x' z', s' = set_cnt (set_clev (set_num (set_tr s t1) x') y) z' /\
       forall m, x' m = if Nat.eqb m n then x n + Z.of_nat (countb free p) else x m)
    cls (set_cnt (set_clev (set_num (set_tr s t1) x) y) z)) as (s' & E & x' & z' & -> & P).
  - exists x, z. split; auto. intro m. destruct (Nat.eqb_spec m n) as [->|N]; auto.
    change (countb free []) with 0%nat. lia.
  - intros p l suf s' Ec (x' & z' & -> & P).
    assert (In l cls) as Hl by (rewrite Ec; apply in_or_app; right; left; auto).
    assert (Rl : lrange t1 l).
    { specialize (R l Hl). unfold lrange, range in *. rewrite (cp_nv _ _ C), (cp_dom _ _ C). auto. }
    unfold inc_count. simpl tr. rewrite chk_ok; auto.
    2: { rewrite (cp_dom _ _ C). apply HB. }
    cbn [bind].
    assert (F : (k <? ALEV t1 (lvar l) (lval l)) || lit_un t1 l = free l).
    { unfold free, llev, lit_un. destruct (in_dec atom_dec (lvar l, lval l) pre) as [I|I].
      - destruct (Z.lt_ge_cases k (ALEV t (lvar l) (lval l))) as [K|K].
        + destruct (cp_gone _ _ C _ _ I K) as (A1 & A2 & _). rewrite A1.
          apply Z.ltb_lt in K. rewrite K, orb_true_r. auto.
        + destruct (cp_kept _ _ C (lvar l) (lval l)) as (A1 & A2 & _); auto. rewrite A1, A2. auto.
      - destruct (cp_kept _ _ C (lvar l) (lval l)) as (A1 & A2 & _); auto. rewrite A1, A2. auto. }
    rewrite F. destruct (free l) eqn:Fl.
    + exists (set_cnt (set_clev (set_num (set_tr s t1) (updn x' n (x' n + 1))) y)
                (if is_bk c then updl z' l (z' l + 1) else z')).
      split; [destruct (is_bk c); reflexivity|].
      eexists _, _. split; [reflexivity|]. intro m.
      rewrite countb_app, countb_cons, Fl. change (countb free []) with 0%nat.
      destruct (Nat.eqb_spec m n) as [->|N].
      * rewrite updn_same, P, Nat.eqb_refl. lia.
      * rewrite updn_other by auto. rewrite P. destruct (Nat.eqb_spec m n); [contradiction|auto].
    + eexists. split; [reflexivity|]. eexists _, _. split; [reflexivity|]. intro m.
      rewrite countb_app, countb_cons, Fl. change (countb free []) with 0%nat.
      rewrite P. destruct (Nat.eqb m n); auto. lia.
  - exists x', z'. auto.
Qed.

(** One literal of the second pass. *)
Lemma unsat_ok t1 x y z pre l :
  cutP pre t1 -> lrange t l ->
  exists x' y' z',
    unsatisfy_clauses c k (set_cnt (set_clev (set_num (set_tr s t1) x) y) z) l =
      Ok (set_cnt (set_clev (set_num (set_tr s t1) x') y') z') /\
    forall n cls, nth_error (cl s) n = Some cls ->
      (In n (rec s l) -> k < y n -> y' n = -1 /\ x' n = x n + Z.of_nat (countb free cls)) /\
      (~ In n (rec s l) \/ y n <= k -> y' n = y n /\ x' n = x n).
Proof.
  intros C R. unfold unsatisfy_clauses. simpl tr.
  assert (R1 : lrange t1 l).
  { unfold lrange, range in *. rewrite (cp_nv _ _ C), (cp_dom _ _ C). auto. }
  rewrite chk_ok; auto. 2: { rewrite (cp_dom _ _ C). apply HB. }
  cbn [bind].
  change (rec (set_cnt (set_clev (set_num (set_tr s t1) x) y) z) l) with (rec s l).
  destruct (foldM_ind (unsat_step c k)
    (fun p s' => exists x' y' z', s' = set_cnt (set_clev (set_num (set_tr s t1) x') y') z' /\
       forall n cls, nth_error (cl s) n = Some cls ->
        (In n p -> k < y n -> y' n = -1 /\ x' n = x n + Z.of_nat (countb free cls)) /\
        (~ In n p \/ y n <= k -> y' n = y n /\ x' n = x n))
    (rec s l) (set_cnt (set_clev (set_num (set_tr s t1) x) y) z))
    as (s' & E & x' & y' & z' & -> & P).
  - exists x, y, z. split; auto. intros n cls Hn. split; [intros []|auto].
  - intros p n suf s' Er (x' & y' & z' & -> & P).
    assert (In n (rec s l)) as Hn by (rewrite Er; apply in_or_app; right; left; auto).
    destruct (SI_get s l n HS Hn) as (cls & Hc & _).
    unfold unsat_step, getcl. simpl cl. rewrite Hc. cbn [bind]. simpl clev.
    destruct (k <? y' n) eqn:K.
    + apply Z.ltb_lt in K.
      assert (Np : ~ In n p /\ k < y n).
      { destruct (P n cls Hc) as (P1 & P2). destruct (Z.lt_ge_cases k (y n)) as [Y|Y].
        - split; auto. intro I. destruct (P1 I Y). lia.
        - destruct P2; auto. lia. }
      destruct Np as (Np & Yn).
      destruct (inc_fold n cls t1 x' y' z' pre C) as (x'' & z'' & E2 & P2).
      { intros l' Hl'. apply (si_ok _ HS cls); auto. eapply nth_error_In; eauto. }
      rewrite E2. cbn [bind].
      eexists. split; [reflexivity|].
      exists x'', (updn y' n (-1)), z''. split; [reflexivity|].
      intros m cm Hm. destruct (Nat.eq_dec m n) as [->|Nm].
      * rewrite updn_same, P2, Nat.eqb_refl. assert (cm = cls) by congruence. subst cm.
        split.
        -- intros _ _. split; auto. destruct (P n cls Hc) as (_ & P3). destruct P3 as (_ & ->); auto.
        -- intros [X|X]; [|lia]. exfalso. apply X. apply in_or_app; right; left; auto.
      * rewrite updn_other by auto. rewrite P2. destruct (Nat.eqb_spec m n); [contradiction|].
        destruct (P m cm Hm) as (P3 & P4). split.
        -- intros I Y. apply in_app_or in I. destruct I as [I|[I|[]]]; [auto|congruence].
        -- intros [I|I]; apply P4; auto. left. intro I'. apply I. apply in_or_app; auto.
    + apply Z.ltb_ge in K. eexists. split; [reflexivity|].
      exists x', y', z'. split; [reflexivity|].
      intros m cm Hm. destruct (P m cm Hm) as (P3 & P4). split.
      * intros I Y. apply in_app_or in I. destruct I as [I|[<-|[]]]; [auto|].
        destruct (in_dec Nat.eq_dec n p) as [I|I]; [auto|].
        destruct P4; auto. lia.
      * intros [I|I]; apply P4; auto. left. intro I'. apply I. apply in_or_app; auto.
  - exists x', y', z'. auto.
Qed.

Lemma cutP_nil : cutP [] t.
Proof. split; auto. intros v d []. intros v (d & [] & _). Qed.

Lemma cutP_unmark pre t1 v d :
  cutP pre t1 -> k < ALEV t v d ->
  cutP (pre ++ [(v, d)])
    (mkTrail (NV t1) (DOM t1) (upd1 (VAL t1) v (-1)) (upd2 (ASG t1) v d Un)
       (upd2 (ALEV t1) v d (-10)) (AIDX t1) (upd2 (CID t1) v d RUndef) (DST t1)).
Proof.
  intros C K. split; simpl; try apply C.
  - intros v' d' I K'. destruct (atom_dec (v', d') (v, d)) as [E|E].
    + inversion E; subst. rewrite !upd2_same; auto.
    + rewrite !upd2_other by (destruct (Z.eq_dec v' v); destruct (Z.eq_dec d' d); auto; subst; congruence).
      apply (cp_gone _ _ C); auto. apply in_app_or in I. destruct I as [I|[I|[]]]; auto. congruence.
  - intros v' d' I. destruct (atom_dec (v', d') (v, d)) as [E|E].
    + inversion E; subst. exfalso. destruct I as [I|I]; [|lia].
      apply I. apply in_or_app; right; left; auto.
    + rewrite !upd2_other by (destruct (Z.eq_dec v' v); destruct (Z.eq_dec d' d); auto; subst; congruence).
      apply (cp_kept _ _ C); auto. destruct I as [I|I]; auto. left. intro I'. apply I.
      apply in_or_app; auto.
  - intros v' (d' & I & K'). destruct (Z.eq_dec v' v) as [->|N]; [apply upd1_same|].
    rewrite upd1_other by auto. apply (cp_val _ _ C). exists d'. split; auto.
    apply in_app_or in I. destruct I as [I|[I|[]]]; auto. congruence.
  - intros v' H. destruct (Z.eq_dec v' v) as [->|N].
    + exfalso. specialize (H d). assert (ALEV t v d <= k); [|lia].
      apply H. apply in_or_app; right; left; auto.
    + rewrite upd1_other by auto. apply (cp_val' _ _ C). intros d' I. apply H.
      apply in_or_app; auto.
Qed.

Lemma cutP_skip pre t1 v d : cutP pre t1 -> ALEV t v d <= k -> cutP (pre ++ [(v, d)]) t1.
Proof.
  intros C K. split; simpl; try apply C.
  - intros v' d' I K'. apply in_app_or in I. destruct I as [I|[I|[]]].
    + apply (cp_gone _ _ C); auto.
    + inversion I; subst. lia.
  - intros v' d' [I|I]; apply (cp_kept _ _ C); auto. left. intro I'. apply I. apply in_or_app; auto.
  - intros v' (d' & I & K'). apply (cp_val _ _ C). exists d'; split; auto.
    apply in_app_or in I. destruct I as [I|[I|[]]]; auto. inversion I; subst; lia.
  - intros v' H. apply (cp_val' _ _ C). intros d' I. apply H. apply in_or_app; auto.
Qed.

Lemma hit_mono pre a l : hit pre l = true -> hit (pre ++ [a]) l = true.
Proof.
  unfold hit. rewrite inb_snoc, !andb_true_iff, orb_true_iff. tauto.
Qed.

Lemma lev_of_true n cls l : nth_error (cl s) n = Some cls -> In l cls -> lit_true t l = true ->
  0 <= clev s n <= llev t l.
Proof.
  intros Hn Hl Tl. destruct (HC n cls Hn) as [(_ & C2 & _)|(C1 & _ & _ & C4)].
  - fold t in C2. rewrite (C2 l Hl) in Tl. discriminate.
  - split; auto.
Qed.

Lemma pass2 x0 z0 :
  exists t1 x y z, foldM (undo2 c k) (atoms_from t 1) (set_cnt (set_num s x0) z0) =
      Ok (set_cnt (set_clev (set_num (set_tr s t1) x) y) z) /\
    cutP (atoms_from t 1) t1 /\
    forall n cls, nth_error (cl s) n = Some cls ->
      (k < clev s n -> y n = -1 /\ x n = x0 n + Z.of_nat (countb free cls)) /\
      (clev s n <= k -> y n = clev s n /\ x n = x0 n).
Proof.
  destruct (foldM_ind (undo2 c k)
    (fun pre s' => exists t1 x y z, s' = set_cnt (set_clev (set_num (set_tr s t1) x) y) z /\
      cutP pre t1 /\
      forall n cls, nth_error (cl s) n = Some cls ->
        (k < clev s n -> existsb (hit pre) cls = true ->
           y n = -1 /\ x n = x0 n + Z.of_nat (countb free cls)) /\
        (clev s n <= k \/ existsb (hit pre) cls = false -> y n = clev s n /\ x n = x0 n))
    (atoms_from t 1) (set_cnt (set_num s x0) z0)) as (s' & E & t1 & x & y & z & -> & C & P).
  - exists t, x0, (clev s), z0. split; [destruct s; reflexivity|]. split; [apply cutP_nil|].
    intros n cls Hn. split; auto. intros _ X. apply existsb_exists in X.
    destruct X as (l & _ & X). discriminate X.
  - intros pre (v & d) suf s' Ea (t1 & x & y & z & -> & C & P).
    assert (R : range t v d).
    { apply in_atoms1. rewrite Ea. apply in_or_app; right; left; auto. }
    assert (N : ~ In (v, d) pre).
    { pose proof (nodup_atoms t 1) as ND. rewrite Ea in ND. apply NoDup_remove_2 in ND.
      intro I. apply ND. apply in_or_app; auto. }
    destruct (cp_kept _ _ C v d) as (A1 & A2 & A3); auto.
    unfold undo2. simpl tr. rewrite A2, A1.
    destruct (k <? ALEV t v d) eqn:K.
    + apply Z.ltb_lt in K.
      assert (Rl : lrange t (tlit t v d)) by (unfold tlit; destruct (ASG t v d); exact R).
      destruct (unsat_ok t1 x y z pre (tlit t v d) C Rl) as (x' & y' & z' & E1 & P1).
      eexists. split.
      { unfold tlit in E1. destruct (ASG t v d); rewrite E1; cbn [bind]; reflexivity. }
      eexists _, x', y', z'. split; [reflexivity|]. split; [apply cutP_unmark; auto|].
      intros n cls Hn. destruct (P n cls Hn) as (P2 & P3). destruct (P1 n cls Hn) as (P4 & P5).
      assert (Tl : lit_true t (tlit t v d) = true).
      { apply lit_true_asg. pose proof (above_as v d R K). unfold tlit.
        destruct (ASG t v d) eqn:A; simpl; auto. congruence. }
      assert (Hl : hit (pre ++ [(v, d)]) (tlit t v d) = true).
      { unfold hit. rewrite inb_snoc. unfold atom.
        assert (B1 : lvar (tlit t v d) = v) by (unfold tlit; destruct (ASG t v d); auto).
        assert (B2 : lval (tlit t v d) = d) by (unfold tlit; destruct (ASG t v d); auto).
        unfold llev. rewrite B1, B2. destruct (atom_dec (v, d) (v, d)); [|congruence].
        apply Z.ltb_lt in K. rewrite K, Tl, orb_true_r. auto. }
      assert (EQ : existsb (hit (pre ++ [(v, d)])) cls = existsb (hit pre) cls || existsb (lit_eqb (tlit t v d)) cls).
      { apply eq_true_iff_eq. rewrite orb_true_iff, !existsb_exists. split.
        - intros (l & Il & X). unfold hit in X. rewrite inb_snoc in X.
          apply andb_prop in X. destruct X as (X & X3). apply andb_prop in X. destruct X as (X1 & X2).
          apply orb_prop in X1. destruct X1 as [X1|X1].
          + left. exists l. split; auto. unfold hit. rewrite X1, X2, X3; auto.
          + right. exists l. split; auto. destruct (atom_dec (atom l) (v, d)) as [Ae|]; [|discriminate].
            injection Ae as Av Ad. destruct (lit_eqb_spec (tlit t v d) l) as [|Ne]; auto.
            exfalso. apply Ne. apply lit_true_asg in X3. unfold tlit.
            rewrite <- (lit_eta l). rewrite Av, Ad in *. rewrite X3. destruct (leq l); auto.
        - intros [(l & Il & X)|(l & Il & X)].
          + exists l. split; auto. apply hit_mono; auto.
          + destruct (lit_eqb_spec (tlit t v d) l) as [<-|]; [|discriminate]. eauto. }
      assert (IN : existsb (lit_eqb (tlit t v d)) cls = true <-> In n (rec s (tlit t v d))).
      { rewrite has_atom_In, (SI_in s n cls _ HS Hn). tauto. }
      split.
      * intros Kn Hx. rewrite EQ in Hx.
        destruct (existsb (hit pre) cls) eqn:H1.
        -- destruct P2 as (Y & X); auto. destruct P5 as (Y' & X'); [right; lia|]. split; congruence.
        -- simpl in Hx. apply IN in Hx. destruct P3 as (Y & X); auto.
           destruct P4 as (Y' & X'); auto; [lia|]. split; auto. lia.
      * intros Q. assert (Y0 : y n = clev s n /\ x n = x0 n).
        { apply P3. destruct Q as [Q|Q]; auto. right. rewrite EQ in Q. apply orb_false_iff in Q. tauto. }
        destruct Y0 as (Y & X). destruct P5 as (Y' & X').
        { destruct Q as [Q|Q]; [right; lia|]. rewrite EQ in Q. apply orb_false_iff in Q.
          left. rewrite <- IN. destruct Q as (_ & ->). discriminate. }
        split; congruence.
    + apply Z.ltb_ge in K. eexists. split; [reflexivity|].
      exists t1, x, y, z. split; [reflexivity|]. split; [apply cutP_skip; auto|].
      intros n cls Hn.
      assert (EQ : existsb (hit (pre ++ [(v, d)])) cls = existsb (hit pre) cls).
      { apply eq_true_iff_eq. rewrite !existsb_exists. split.
        - intros (l & Il & X). exists l. split; auto. unfold hit in *. rewrite inb_snoc in X.
          destruct (atom_dec (atom l) (v, d)) as [Ae|]; [|rewrite orb_false_r in X; auto].
          injection Ae as Av Ad. unfold llev in X. rewrite Av, Ad in X.
          assert (X2 : (k <? ALEV t v d) = false) by (apply Z.ltb_ge; auto).
          rewrite X2, andb_false_r in X. discriminate.
        - intros (l & Il & X). exists l. split; auto. apply hit_mono; auto. }
      rewrite EQ. apply P; auto.
  - exists t1, x, y, z. split; auto. split; auto. intros n cls Hn.
    destruct (P n cls Hn) as (P1 & P2). split; auto. intro K. apply P1; auto.
    destruct (HC n cls Hn) as [(C1 & _)|(C1 & _ & (l & Hl & Tl & Ll) & _)]; [lia|].
    apply existsb_exists. exists l. split; auto. unfold hit. fold t in Tl, Ll. rewrite Tl.
    assert (K' : (k <? llev t l) = true) by (apply Z.ltb_lt; lia). rewrite K'.
    replace (inb (atom l) (atoms_from t 1)) with true; auto. symmetry. apply inb_iff.
    apply in_atoms1. apply (si_ok _ HS cls); auto. eapply nth_error_In; eauto.
Qed.

(** ** The whole of undoTheory *)

Lemma undo_theory_ok :
  exists t' x y z, undo_theory c s k = Ok (set_cnt (set_clev (set_num (set_tr s t') x) y) z) /\
    cut t k t' /\ CI (set_cnt (set_clev (set_num (set_tr s t') x) y) z).
Proof.
  unfold undo_theory. fold t.
  destruct pass1 as (x1 & z1 & E1 & P1). rewrite E1. cbn [bind].
  change (atoms_from (tr (set_cnt (set_num s x1) z1)) 1) with (atoms_from t 1).
  destruct (pass2 x1 z1) as (t1 & x & y & z & E2 & C & P2). rewrite E2. cbn [bind].
  unfold prune_dst. simpl tr.
  assert (Rg : forall v d, range t1 v d <-> range t v d).
  { intros v d. unfold range. rewrite (cp_nv _ _ C), (cp_dom _ _ C). tauto. }
  assert (Fa : forallb (lit_ok t1) (DST t1) = true).
  { apply forallb_forall. intros f Hf. apply lit_ok_range.
    - rewrite (cp_dom _ _ C). apply HB.
    - unfold lrange. rewrite Rg. rewrite (cp_dst _ _ C) in Hf. apply In_nth_error in Hf.
      destruct Hf as (i & Hi). apply (td_dst _ HD i f Hi). }
  rewrite Fa.
  set (t' := mkTrail (NV t1) (DOM t1) (VAL t1) (ASG t1) (ALEV t1) (AIDX t1) (CID t1)
               (filter (fun l => negb (lit_un t1 l)) (DST t1))).
  assert (K1 : forall v d, range t v d -> k < ALEV t v d ->
             ASG t1 v d = Un /\ ALEV t1 v d = -10 /\ CID t1 v d = RUndef).
  { intros v d R K. apply (cp_gone _ _ C); auto. apply in_atoms1; auto. }
  assert (K2 : forall v d, range t v d -> ALEV t v d <= k ->
             ASG t1 v d = ASG t v d /\ ALEV t1 v d = ALEV t v d /\ CID t1 v d = CID t v d).
  { intros v d R K. apply (cp_kept _ _ C); auto. }
  assert (CUT : cut t k t').
  { split; simpl; try apply C; auto.
    - intros v d. rewrite (cp_idx _ _ C). auto.
    - intros v (d & R & K). apply (cp_val _ _ C). exists d. split; auto. apply in_atoms1; auto.
    - intros v H. apply (cp_val' _ _ C). intros d I. apply H. apply in_atoms1; auto.
    - rewrite (cp_dst _ _ C). apply filter_ext_in. intros f Hf.
      apply In_nth_error in Hf. destruct Hf as (i & Hi).
      destruct (td_dst _ HD i f Hi) as (Rf & Tf & _). apply lit_true_as in Tf.
      unfold lit_un. destruct (Z.leb_spec (llev t f) k) as [K|K].
      + destruct (K2 _ _ Rf K) as (-> & _). destruct (ASG t (lvar f) (lval f)); auto; congruence.
      + destruct (K1 _ _ Rf K) as (-> & _). auto. }
  exists t', x, y, z. split; [reflexivity|]. split; auto.
  intros n cls Hn. simpl in Hn. simpl.
  assert (RC : forall l, In l cls -> lrange t l).
  { intros l Hl. apply (si_ok _ HS cls); auto. eapply nth_error_In; eauto. }
  assert (UN : forall l, In l cls -> lit_un t' l = free l).
  { intros l Hl. unfold free. specialize (RC l Hl).
    destruct (Z.ltb_spec k (llev t l)) as [K|K].
    - apply (cut_un t k t'); auto.
    - simpl. unfold lit_un. destruct (cut_kept _ _ _ CUT _ _ RC K) as (-> & _). auto. }
  destruct (P2 n cls Hn) as (Q1 & Q2). specialize (P1 n cls Hn).
  destruct (HC n cls Hn) as [(C1 & C2 & C3)|(C1 & C2 & (l & Hl & Tl & Ll) & C4)].
  - fold t in C2, C3. destruct Q2 as (Y & X); [lia|]. left. rewrite Y. split; auto. split.
    + intros l Hl. specialize (RC l Hl). specialize (C2 l Hl).
      destruct (Z.le_gt_cases (llev t l) k) as [K|K].
      * rewrite (cut_true t k t'); auto.
      * pose proof (cut_un t k t' l CUT RC K) as Ul.
        destruct (lit_cases t' l) as [Z1|[Z1|Z1]]; intuition congruence.
    + rewrite X, P1, C1, C3. simpl.
      rewrite (countb_ext (lit_un t') free cls) by auto.
      rewrite (countb_sum free (lit_un t) (undone (atoms_from t 1)) cls); [lia|].
      intros l Hl. specialize (RC l Hl). specialize (C2 l Hl). unfold free, undone.
      replace (inb (atom l) (atoms_from t 1)) with true
        by (symmetry; apply inb_iff; apply in_atoms1; auto).
      simpl. destruct (lit_un t l) eqn:U.
      * apply lit_un_iff in U. pose proof (tb_un _ _ _ HB _ _ RC U) as L. unfold llev.
        assert (X2 : (k <? ALEV t (lvar l) (lval l)) = false) by (apply Z.ltb_ge; lia).
        rewrite X2. auto.
      * rewrite orb_false_r. destruct (k <? llev t l); simpl; auto.
        destruct (lit_eqb_spec l (flit t (lvar l) (lval l))) as [_|Ne]; auto.
        exfalso. apply Ne.
        destruct (lit_cases t l) as [Z1|[Z1|Z1]]; [intuition congruence|intuition congruence|].
        destruct Z1 as (_ & _ & F). apply lit_false_asg in F. unfold flit. rewrite F.
        rewrite <- (lit_eta l) at 1. destruct (leq l); auto.
  - fold t in Tl, Ll, C4. destruct (Z.lt_ge_cases k (clev s n)) as [K|K].
    + destruct Q1 as (Y & X); auto. left. rewrite Y. split; auto. split.
      * intros w Hw. specialize (RC w Hw). destruct (Z.le_gt_cases (llev t w) k) as [Kw|Kw].
        -- rewrite (cut_true t k t'); auto. destruct (lit_true t w) eqn:Tw; auto.
           specialize (C4 w Hw Tw). lia.
        -- pose proof (cut_un t k t' w CUT RC Kw) as Ul.
           destruct (lit_cases t' w) as [Z1|[Z1|Z1]]; intuition congruence.
      * rewrite X, P1. destruct (Z.eqb_spec (clev s n) (-1)); [lia|]. rewrite C2.
        rewrite (countb_ext (lit_un t') free cls) by auto. lia.
    + destruct Q2 as (Y & X); auto. right. rewrite Y, X, P1.
      destruct (Z.eqb_spec (clev s n) (-1)); [lia|]. split; auto. split; auto. split.
      * exists l. split; auto. rewrite (cut_true t k t'), (cut_llev t k t'); auto; lia.
      * intros w Hw Tw. specialize (RC w Hw). destruct (Z.le_gt_cases (llev t w) k) as [Kw|Kw].
        -- rewrite (cut_true t k t') in Tw by auto. rewrite (cut_llev t k t') by auto. auto.
        -- pose proof (cut_un t k t' w CUT RC Kw) as Ul.
           destruct (lit_cases t' w) as [Z1|[Z1|Z1]]; intuition congruence.
Qed.

End Undo.
