(** * The state built from a well-formed problem *)

From Coq Require Import Floats.SpecFloat.
From Verif Require Import Spec WideSpec Outcome State ModelCounter ModelHeur ModelLearn ModelWatch
  ModelSearch ModelBuild Base Trail Reduce Counter CounterUndo Propagate Choose Scores.

(** ** Domains *)

(** Occurrences of [l] in a list of clauses. *)
Definition occs (l : lit) (cs : list clause) : nat := list_sum (map (occ l) cs).

Lemma occs_snoc l cs c : occs l (cs ++ [c]) = (occs l cs + occ l c)%nat.
Proof. unfold occs. rewrite map_app, list_sum_app. simpl. lia. Qed.

Lemma domsize_snoc ds d x : domsize (mkProblem (ds ++ [d]) []) x =
  if x =? Z.of_nat (length ds) + 1 then d else domsize (mkProblem ds []) x.
Proof.
  unfold domsize; simpl. destruct (Z.leb_spec 1 x), (Z.eqb_spec x (Z.of_nat (length ds) + 1)); try lia.
  - subst. replace (Z.to_nat (Z.of_nat (length ds) + 1 - 1)) with (length ds) by lia.
    rewrite app_nth2, Nat.sub_diag; auto.
  - destruct (Nat.lt_ge_cases (Z.to_nat (x - 1)) (length ds)) as [L|L].
    + rewrite app_nth1; auto.
    + rewrite app_nth2 by auto. rewrite (nth_overflow ds) by auto.
      destruct (Z.to_nat (x - 1) - length ds)%nat as [|m] eqn:E; [lia|]. destruct m; auto.
Qed.

Lemma build_doms c ds :
  (forall d, In d ds -> 0 <= d) ->
  exists t, foldM (add_item c) (map IDom ds) init_state = Ok (set_tr init_state t) /\
    NV t = Z.of_nat (length ds) /\ (forall v, DOM t v = domsize (mkProblem ds []) v) /\
    VAL t = VAL init_trail /\ ASG t = ASG init_trail /\ ALEV t = ALEV init_trail /\
    AIDX t = AIDX init_trail /\ CID t = CID init_trail /\ DST t = [].
Proof.
  induction ds as [|d ds IH] using rev_ind; intro P.
  - exists init_trail. split; [reflexivity|]. split; [reflexivity|]. split; [|auto 10].
    intro v. unfold domsize. simpl. destruct (1 <=? v); auto. destruct (Z.to_nat (v - 1)); auto.
  - destruct IH as (t & E & Nv & Dm & R). { intros; apply P; apply in_or_app; auto. }
    rewrite map_app, foldM_app, E. cbn [bind map foldM add_item].
    unfold add_domain.
    assert (0 <= d) by (apply P; apply in_or_app; right; left; auto).
    destruct (Z.ltb_spec d 0); [lia|]. cbn [bind].
    eexists. split; [reflexivity|]. simpl. split; [rewrite Nv, app_length; simpl; lia|].
    split; [|auto]. intro v. rewrite domsize_snoc, Nv.
    destruct (Z.eqb_spec v (Z.of_nat (length ds) + 1)) as [->|Ne].
    + apply upd1_same.
    + rewrite upd1_other; auto.
Qed.

(** ** Clauses *)

Record built (c : cfg) (t : trail) (cs : list clause) (s : state) : Prop := mkBuilt {
  bu_tr : tr s = t;
  bu_cl : cl s = cs;
  bu_num : forall n k, nth_error cs n = Some k -> num s n = Z.of_nat (length k);
  bu_clev : forall n, clev s n = -1;
  bu_ulist : forall n, In n (ulist s) <-> exists k, nth_error cs n = Some k /\ length k = 1%nat;
  bu_rec : watch c = false -> forall n k l, nth_error cs n = Some k -> nocc n (rec s l) = occ l k;
  bu_recid : forall l n, In n (rec s l) -> (n < length cs)%nat;
  bu_watch : watch c = true -> forall n k, nth_error cs n = Some k ->
    match k with
    | [] => False
    | [a] => w0 s n = a /\ w1 s n = nolit /\ forall l, nocc n (wls s l) = (if lit_eqb l a then 1 else 0)%nat
    | a :: b :: _ => w0 s n = a /\ w1 s n = b /\
        forall l, nocc n (wls s l) = ((if lit_eqb l a then 1 else 0) + (if lit_eqb l b then 1 else 0))%nat
    end;
  bu_wlsid : forall l n, In n (wls s l) -> (n < length cs)%nat;
  bu_w1 : forall n, (length cs <= n)%nat -> w1 s n = nolit;
  bu_cnt : is_bk c = true -> forall l, cnt s l = Z.of_nat (occs l cs);
  bu_vs : scores_ok s;
  bu_misc : level s = 0 /\ uclause s = RDec /\ conflict s = false /\ backtracks s = 0 /\
            decisions s = 0 /\ units s = 0 /\ entails s = 0 /\ restarts s = 0 /\ tick s = 0%nat
}.

Lemma add_lits c n ls s :
  DOM (tr s) 0 = 0 -> (forall l, In l ls -> lrange (tr s) l) ->
  exists v z r, foldM (add_lit c n) ls s = Ok (set_rec (set_cnt (set_vs s v) z) r) /\
    (scores_ok s -> forall l, nonneg (v l)) /\
    (is_bk c = true -> forall l, z l = cnt s l + Z.of_nat (occ l ls)) /\
    (watch c = false -> forall m l, nocc m (r l) = (nocc m (rec s l) + if Nat.eqb m n then occ l ls else 0)%nat) /\
    (forall m l, In m (r l) -> In m (rec s l) \/ m = n).
Proof.
  intros D0 R.
  destruct (foldM_ind (add_lit c n) (fun pre s' => exists v z r,
    s' = set_rec (set_cnt (set_vs s v) z) r /\ (scores_ok s -> forall l, nonneg (v l)) /\
    (is_bk c = true -> forall l, z l = cnt s l + Z.of_nat (occ l pre)) /\
    (watch c = false -> forall m l, nocc m (r l) = (nocc m (rec s l) + if Nat.eqb m n then occ l pre else 0)%nat) /\
    (forall m l, In m (r l) -> In m (rec s l) \/ m = n)) ls s)
    as (s' & E & v & z & r & -> & P).
  - exists (vs s), (cnt s), (rec s). split; [destruct s; reflexivity|]. split; auto.
    split; [intros; unfold occ, countb; simpl; lia|]. split; auto.
    intros _ m l. destruct (Nat.eqb m n); unfold occ, countb; simpl; lia.
  - intros pre l suf s' El (v & z & r & -> & P1 & P2 & P3 & P4).
    assert (Hl : In l ls) by (rewrite El; apply in_or_app; right; left; auto).
    assert (OS : forall x, occ x (pre ++ [l]) = (occ x pre + if lit_eqb x l then 1 else 0)%nat).
    { intro x. unfold occ. rewrite countb_app. unfold countb at 2; simpl. destruct (lit_eqb x l); simpl; lia. }
    unfold add_lit. set (s1 := set_rec (set_cnt (set_vs s v) z) r).
    assert (HC : chk (tr s1) l = Ok tt) by (apply chk_ok; auto; apply R; auto).
    assert (A : exists v' z', (match heur c with
      | VSIDS => do* chk (tr s1) l in Ok (bump s1 l)
      | VSIDS_pos => if leq l then do* chk (tr s1) l in Ok (bump s1 l)
          else if (0 <=? lvar l) && (lvar l <=? NV (tr s1))
               then Ok (bump_others s1 (lvar l) (lval l)) else Undef OobAtom
      | BK => do* chk (tr s1) l in Ok (set_cnt s1 (updl (cnt s1) l (cnt s1 l + 1)))
      | Lazy => Ok s1
      end) = Ok (set_rec (set_cnt (set_vs s v') z') r) /\
      (scores_ok s -> forall l, nonneg (v' l)) /\
      (is_bk c = true -> forall x, z' x = cnt s x + Z.of_nat (occ x (pre ++ [l])))).
    { unfold is_bk in *. destruct (heur c) eqn:Hh; rewrite ?HC; cbn [bind].
      - eexists v, _. split; [reflexivity|]. split; auto. intros _ x. simpl. rewrite OS.
        unfold updl. destruct (lit_eqb_spec x l) as [->|]; rewrite P2 by auto; lia.
      - eexists _, z. split; [reflexivity|]. split; [|intro; discriminate].
        intros S. apply (scores_bump s1). exact (P1 S).
      - exists v, z. split; [reflexivity|]. split; auto. intro; discriminate.
      - destruct (leq l).
        + eexists _, z. split; [reflexivity|]. split; [|intro; discriminate].
          intros S. apply (scores_bump s1). exact (P1 S).
        + pose proof (R l Hl) as Rl. destruct Rl as (Rl & _).
          change (NV (tr s1)) with (NV (tr s)).
          destruct (Z.leb_spec 0 (lvar l)); [|lia]. destruct (Z.leb_spec (lvar l) (NV (tr s))); [|lia].
          simpl andb. destruct (bump_others_ok s1 (lvar l) (lval l)) as ((v' & E') & S').
          exists v', z. rewrite E'. split; [reflexivity|]. split; [|intro; discriminate].
          intros S x. rewrite E' in S'. apply (S' (P1 S) x). }
    destruct A as (v' & z' & -> & A1 & A2). cbn [bind].
    destruct (watch c) eqn:Hw.
    + eexists. split; [reflexivity|]. exists v', z', r. split; auto. split; auto. split; auto.
      split; auto. intro; discriminate.
    + change (tr (set_rec (set_cnt (set_vs s v') z') r)) with (tr s1). rewrite HC. cbn [bind].
      eexists. split; [reflexivity|]. eexists v', z', _. split; [reflexivity|]. split; auto. split; auto.
      simpl. split.
      * intros _ m x. unfold updl. rewrite OS. destruct (lit_eqb_spec x l) as [->|].
        -- rewrite nocc_snoc, P3 by auto. destruct (Nat.eqb m n); lia.
        -- rewrite P3 by auto. destruct (Nat.eqb m n); lia.
      * intros m x. unfold updl. destruct (lit_eqb_spec x l) as [->|]; auto.
        intro I. apply in_app_or in I. destruct I as [I|[<-|[]]]; auto.
  - exists v, z, r. destruct P as (P1 & P2 & P3 & P4). auto.
Qed.

Lemma nth_snoc_cases {A} (l : list A) x n y : nth_error (l ++ [x]) n = Some y ->
  (n < length l)%nat /\ nth_error l n = Some y \/ n = length l /\ y = x.
Proof. apply nth_error_snoc. Qed.

Lemma nocc_cons n m l : nocc n (m :: l) = ((if Nat.eqb n m then 1 else 0) + nocc n l)%nat.
Proof. unfold nocc. rewrite countb_cons. auto. Qed.

Lemma nocc_out n l : (forall m, In m l -> (m < n)%nat) -> nocc n l = 0%nat.
Proof. intro H. apply nocc_zero. intro I. specialize (H n I). lia. Qed.

Lemma add_clause_built c t cs s k :
  built c t cs s -> DOM t 0 = 0 -> k <> [] -> (forall l, In l k -> lrange t l) ->
  exists s', add_clause c s k = Ok s' /\ built c t (cs ++ [k]) s'.
Proof.
  intros B D0 Ne R. destruct B as [b1 b2 b3 b4 b5 b6 b6' b7 b7' bw b8 b9 b10].
  unfold add_clause. rewrite b2. set (n := length cs).
  destruct (add_lits c n k s) as (v & z & r & E & P1 & P2 & P3 & P4).
  { rewrite b1; auto. } { rewrite b1; auto. }
  rewrite E. cbn [bind].
  set (s1 := set_rec (set_cnt (set_vs s v) z) r).
  set (s2 := set_clev (set_num (set_cl s1 (cl s1 ++ [k])) (updn (num s1) n (Z.of_nat (length k))))
               (updn (clev s1) n (-1))).
  set (s3 := if Nat.eqb (length k) 1 then set_ulist s2 (ulist s2 ++ [n]) else s2).
  change (exists s', (if watch c then
    match k with
    | [] => Undef OobClause
    | a :: ls' =>
        let s := set_w0 s3 (updn (w0 s3) n a) in
        let* s := add_record s a n in
        match ls' with
        | [] => Ok s
        | b :: _ =>
            let s := set_w1 s (updn (w1 s) n b) in
            add_record s b n
        end
    end else Ok s3) = Ok s' /\ built c t (cs ++ [k]) s').
  (* everything but the watches *)
  assert (F : forall s', tr s' = tr s3 -> cl s' = cl s3 -> num s' = num s3 -> clev s' = clev s3 ->
     ulist s' = ulist s3 -> rec s' = rec s3 -> cnt s' = cnt s3 -> vs s' = vs s3 ->
     (level s' = level s3 /\ uclause s' = uclause s3 /\ conflict s' = conflict s3 /\ backtracks s' = backtracks s3 /\
      decisions s' = decisions s3 /\ units s' = units s3 /\ entails s' = entails s3 /\ restarts s' = restarts s3 /\ tick s' = tick s3) ->
     (watch c = true -> forall n k0, nth_error (cs ++ [k]) n = Some k0 ->
      match k0 with
      | [] => False
      | [a] => w0 s' n = a /\ w1 s' n = nolit /\ forall l, nocc n (wls s' l) = (if lit_eqb l a then 1 else 0)%nat
      | a :: b :: _ => w0 s' n = a /\ w1 s' n = b /\
        forall l, nocc n (wls s' l) = ((if lit_eqb l a then 1 else 0) + (if lit_eqb l b then 1 else 0))%nat
      end) ->
     (forall l m, In m (wls s' l) -> (m < length (cs ++ [k]))%nat) ->
     (forall m, (length (cs ++ [k]) <= m)%nat -> w1 s' m = nolit) ->
     built c t (cs ++ [k]) s').
  { intros s' E1 E2 E3 E4 E5 E6 E7 E8 EM W1 W2 W4.
    assert (T3 : tr s3 = t) by (subst s3; destruct (Nat.eqb (length k) 1); exact b1).
    assert (C3 : cl s3 = cs ++ [k]) by (subst s3; destruct (Nat.eqb (length k) 1); simpl; rewrite b2; auto).
    assert (N3 : num s3 = updn (num s) n (Z.of_nat (length k))) by (subst s3; destruct (Nat.eqb (length k) 1); auto).
    assert (L3 : clev s3 = updn (clev s) n (-1)) by (subst s3; destruct (Nat.eqb (length k) 1); auto).
    assert (R3 : rec s3 = r) by (subst s3; destruct (Nat.eqb (length k) 1); auto).
    assert (Z3 : cnt s3 = z) by (subst s3; destruct (Nat.eqb (length k) 1); auto).
    assert (V3 : vs s3 = v) by (subst s3; destruct (Nat.eqb (length k) 1); auto).
    split; auto; try congruence.
    - intros m k0 Hm. rewrite E3, N3. apply nth_snoc_cases in Hm. destruct Hm as [(Lm & Hm)|(-> & ->)].
      + rewrite updn_other by (subst n; lia). auto.
      + apply updn_same.
    - intro m. rewrite E4, L3. unfold updn. destruct (Nat.eqb m n); auto.
    - intro m. rewrite E5. assert (U : In m (ulist s3) <-> In m (ulist s) \/ m = n /\ length k = 1%nat).
      { subst s3. destruct (Nat.eqb_spec (length k) 1) as [E1'|E1'].
        - simpl. rewrite in_app_iff. simpl. intuition.
        - simpl. intuition. }
      rewrite U, b5. split.
      + intros [(k0 & H1 & H2)|(-> & H2)].
        * exists k0. split; auto. apply nth_error_snoc_old; auto.
        * exists k. split; auto. apply nth_error_snoc_last.
      + intros (k0 & H1 & H2). apply nth_snoc_cases in H1. destruct H1 as [(Lm & Hm)|(-> & ->)]; eauto.
    - intros Hw m k0 l Hm. rewrite E6, R3. rewrite P3 by auto. apply nth_snoc_cases in Hm.
      destruct Hm as [(Lm & Hm)|(-> & ->)].
      + rewrite (b6 Hw m k0 l Hm). destruct (Nat.eqb_spec m n); subst n; lia.
      + fold n. rewrite Nat.eqb_refl. rewrite nocc_out; auto. intros m' Hm'. exact (b6' l m' Hm').
    - intros l m. rewrite E6, R3. intro I. rewrite app_length; simpl. apply P4 in I.
      destruct I as [I| ->]; [apply b6' in I; lia|subst n; lia].
    - intros Hb l. rewrite E7, Z3, P2, b8 by auto. rewrite occs_snoc. lia.
    - intro l. rewrite E8, V3. auto.
    - destruct EM as (-> & -> & -> & -> & -> & -> & -> & -> & ->).
      subst s3. destruct (Nat.eqb (length k) 1); exact b10. }
  assert (TR3 : tr s3 = t) by (subst s3; destruct (Nat.eqb (length k) 1); exact b1).
  assert (W3 : wls s3 = wls s) by (subst s3; destruct (Nat.eqb (length k) 1); auto).
  assert (X0 : w0 s3 = w0 s) by (subst s3; destruct (Nat.eqb (length k) 1); auto).
  assert (X1 : w1 s3 = w1 s) by (subst s3; destruct (Nat.eqb (length k) 1); auto).
  destruct (watch c) eqn:Hw.
  2: { exists s3. split; auto. apply F; auto.
       - repeat split.
       - intro; congruence.
       - intros l m I. rewrite W3 in I. apply b7' in I. rewrite app_length. lia.
       - intros m Hm. rewrite app_length in Hm. rewrite ?X1. apply bw. lia. }
  destruct k as [|a k]; [congruence|].
  unfold add_record at 1. simpl tr. rewrite TR3, chk_ok by (auto; apply R; left; auto). cbn [bind].
  assert (ON : forall l, nocc n (wls s l) = 0%nat) by (intro l; apply nocc_out; intros m Hm; exact (b7' l m Hm)).
  destruct k as [|b k].
  - eexists. split; [reflexivity|]. apply F; auto; simpl.
    + repeat split.
    + intros _ m k0 Hm. rewrite ?X0, ?X1, ?W3. apply nth_snoc_cases in Hm. destruct Hm as [(Lm & Hm)|(-> & ->)].
      * assert (Nm : m <> n) by (subst n; lia).
        specialize (b7 eq_refl m k0 Hm). rewrite !updn_other by auto.
        assert (OO : forall l, nocc m (updl (wls s) a (n :: wls s a) l) = nocc m (wls s l)).
        { intro l. unfold updl. destruct (lit_eqb_spec l a) as [->|]; auto.
          rewrite nocc_cons. destruct (Nat.eqb_spec m n); [congruence|auto]. }
        destruct k0 as [|x [|y k0]]; auto.
        -- destruct b7 as (Q1 & Q1' & Q2). split; auto. split; auto. intro l. rewrite OO; auto.
        -- destruct b7 as (Q1 & Q2 & Q3). split; auto. split; auto. intro l. rewrite OO; auto.
      * fold n. rewrite !updn_same. split; auto. split; [apply bw; auto|]. intro l. unfold updl.
        destruct (lit_eqb_spec l a) as [->|]; auto. rewrite nocc_cons, Nat.eqb_refl, ON. auto.
    + intros l m. rewrite ?W3. rewrite app_length; simpl. unfold updl.
      destruct (lit_eqb l a); simpl; [intros [<-|I]|intro I]; try (apply b7' in I; lia). subst n; lia.
    + intros m Hm. rewrite app_length in Hm. rewrite ?X1. apply bw. lia.
  - unfold add_record. match goal with |- context [chk ?x b] => replace x with t by (symmetry; exact b1) end.
    rewrite chk_ok by (auto; apply R; right; left; auto). cbn [bind].
    eexists. split; [reflexivity|]. apply F; auto; simpl.
    + repeat split.
    + intros _ m k0 Hm. rewrite ?X0, ?X1, ?W3. apply nth_snoc_cases in Hm. destruct Hm as [(Lm & Hm)|(-> & ->)].
      * assert (Nm : m <> n) by (subst n; lia).
        specialize (b7 eq_refl m k0 Hm). rewrite !updn_other by auto.
        assert (OO : forall f x l, nocc m (updl f x (n :: f x) l) = nocc m (f l)).
        { intros f x l. unfold updl. destruct (lit_eqb_spec l x) as [->|]; auto.
          rewrite nocc_cons. destruct (Nat.eqb_spec m n); [congruence|auto]. }
        destruct k0 as [|x [|y k0]]; auto.
        -- destruct b7 as (Q1 & Q1' & Q2). split; auto. split; auto. intro l. rewrite !OO; auto.
        -- destruct b7 as (Q1 & Q2 & Q3). split; auto. split; auto. intro l. rewrite !OO; auto.
      * fold n. rewrite !updn_same. split; auto. split; auto. intro l.
        assert (OO : forall f x l, nocc n (updl f x (n :: f x) l) = ((if lit_eqb l x then 1 else 0) + nocc n (f l))%nat).
        { intros f x l'. unfold updl. destruct (lit_eqb_spec l' x) as [->|]; auto.
          rewrite nocc_cons, Nat.eqb_refl. auto. }
        rewrite !OO, ON. lia.
    + intros l m. rewrite ?W3. rewrite app_length; simpl.
      assert (OO : forall f x l, In m (updl f x (n :: f x) l) -> m = n \/ In m (f l)).
      { intros f x l'. unfold updl. destruct (lit_eqb_spec l' x) as [->|]; auto. simpl. intuition. }
      intro I. apply OO in I. destruct I as [->|I]; [subst n; lia|].
      apply OO in I. destruct I as [->|I]; [subst n; lia|]. apply b7' in I. lia.
    + intros m Hm. rewrite app_length in Hm. simpl in Hm. rewrite ?X1, updn_other by (subst n; lia). apply bw. lia.
Qed.

(** The state after reading a well-formed problem. *)
Definition start_trail (p : problem) (t : trail) : Prop :=
  NV t = nvars p /\ (forall v, DOM t v = domsize p v) /\
  VAL t = VAL init_trail /\ ASG t = ASG init_trail /\ ALEV t = ALEV init_trail /\
  AIDX t = AIDX init_trail /\ CID t = CID init_trail /\ DST t = [].

Lemma start_wf_range p t l : start_trail p t -> wf_lit p l -> lrange t l.
Proof. intros (N & D & _) (H1 & H2). split; [rewrite N|rewrite D]; auto. Qed.

Lemma build_ok c p : usable p ->
  exists t s, build c (items_of p) = Ok s /\ start_trail p t /\ built c t (clauses p) s.
Proof.
  intros (W1 & W2). unfold build, items_of. rewrite foldM_app.
  destruct (build_doms c (doms p)) as (t & E & P).
  { intros d Hd. specialize (W1 d Hd). lia. }
  rewrite E. cbn [bind].
  assert (ST : start_trail p t).
  { destruct P as (P1 & P2 & P3). split; auto. }
  assert (D0 : DOM t 0 = 0).
  { destruct ST as (_ & D & _). rewrite D. reflexivity. }
  exists t.
  assert (G : forall cs, (forall k, In k cs -> k <> [] /\ forall l, In l k -> wf_lit p l) ->
     exists s, foldM (add_item c) (map ICls cs) (set_tr init_state t) = Ok s /\ built c t cs s).
  { induction cs as [|k cs IH] using rev_ind; intro W.
    - eexists. split; [reflexivity|]. split; simpl; auto.
      + intros [|n] k; discriminate.
      + intro n. split; [intros []|]. intros (k & H & _). destruct n; discriminate.
      + intros _ [|n] k l; discriminate.
      + intros l n [].
      + intros _ [|n] k; discriminate.
      + intros l n [].
      + intro l; exact I.
      + repeat split.
    - destruct IH as (s & Es & Bs). { intros; apply W; apply in_or_app; auto. }
      rewrite map_app, foldM_app. match goal with |- context [bind ?x _] => replace x with (Ok s) by (symmetry; exact Es) end. cbn [bind map foldM add_item].
      destruct (W k) as (Nk & Wk); [apply in_or_app; right; left; auto|].
      destruct (add_clause_built c t cs s k Bs D0 Nk) as (s' & Es' & Bs').
      { intros l Hl. eapply start_wf_range; eauto. }
      rewrite Es'. exists s'. split; auto. }
  destruct (G (clauses p) W2) as (s & Es & Bs). exists s. auto.
Qed.

(** ** The trail at the start *)

Lemma start_TB p t lev ex : usable p -> start_trail p t -> 0 <= lev -> TB t lev ex.
Proof.
  intros (W & _) (N & D & V & A & L & X & C & S) Lv.
  assert (Dom2 : forall v, 1 <= v <= NV t -> 0 <= DOM t v).
  { intros v Hv. rewrite D. unfold domsize. destruct (Z.leb_spec 1 v); [|lia].
    apply W. apply nth_In. unfold nvars in N. lia. }
  split; auto.
  - rewrite N. unfold nvars. lia.
  - rewrite D. reflexivity.
  - rewrite V. simpl. lia.
  - intros v d _ _. rewrite L. reflexivity.
  - intros v d _ H. rewrite A in H. simpl in H. congruence.
  - intros v d _ H. rewrite A in H. simpl in H. congruence.
  - intros v Hv H. rewrite V in H. simpl in H. destruct (Z.eqb_spec v 0); lia.
  - intros v d d' _ _ H. rewrite A in H. discriminate.
  - intros v k Hv W2 _ _. exists 0, 1. split; [lia|].
    split; [split; lia|]. split; [split; lia|].
    split; left; rewrite A; reflexivity.
Qed.

Lemma start_TD p t : start_trail p t -> TD t.
Proof.
  intros (N & D & V & A & L & X & C & S). split.
  - intros v d _ H. rewrite A in H. simpl in H. congruence.
  - intros i f H. rewrite S in H. destruct i; discriminate.
  - intros i j f g H. rewrite S in H. destruct i; discriminate.
Qed.

Lemma start_TR p t cls : start_trail p t -> TR t cls.
Proof.
  intros (N & D & V & A & L & X & C & S) i f H. rewrite S in H. destruct i; discriminate.
Qed.

Lemma start_un p t l : start_trail p t -> lit_un t l = true.
Proof. intros (N & D & V & A & _). unfold lit_un. rewrite A. reflexivity. Qed.

Lemma start_CS c p t s :
  usable p -> watch c = false -> start_trail p t -> built c t (clauses p) s -> CS s.
Proof.
  intros W Hw ST B. pose proof (start_TB p t 0 (fun _ => conflict s = true) W ST ltac:(lia)) as HB.
  destruct B as [b1 b2 b3 b4 b5 b6 b6' b7 b7' bw b8 b9 b10].
  destruct b10 as (Lv & _ & Cf & _).
  assert (U : forall k, countb (lit_un t) k = length k).
  { intro k. apply countb_length. intros l _. eapply start_un; eauto. }
  split.
  - split; [split|split; [|split]].
    + intros n k l Hn. rewrite b2 in Hn. auto.
    + intros l n. rewrite b2. apply b6'.
    + intros k l Hk Hl. rewrite b1. rewrite b2 in Hk. eapply start_wf_range; eauto.
      destruct W as (_ & W). destruct (W k Hk). auto.
    + rewrite b2. intro I. destruct W as (_ & W). destruct (W [] I). congruence.
    + intros n k Hn. rewrite b2 in Hn. left. split; auto. rewrite b1. split.
      * intros l _. pose proof (start_un p t l ST) as X. destruct (lit_cases t l) as [Y|[Y|Y]]; intuition congruence.
      * rewrite U. eauto.
    + intros n H. rewrite b2. apply b5 in H. destruct H as (k & H & _). eapply nth_error_lt; eauto.
    + intros n H _. apply b5 in H. destruct H as (k & H & H'). rewrite (b3 n k H). lia.
    + intros _ n k Hn _. rewrite b2 in Hn. rewrite (b3 n k Hn).
      destruct W as (_ & W). destruct (W k) as (Nk & _); [eapply nth_error_In; eauto|].
      destruct k as [|x [|y k]]; [congruence| |left; simpl; lia].
      right. split; auto. left. apply b5. eauto.
    + congruence.
  - rewrite b1, Lv. auto.
  - rewrite b1. eapply start_TD; eauto.
  - lia.
  - intros j k J. lia.
Qed.
