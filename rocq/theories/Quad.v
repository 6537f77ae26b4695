(** * The quadratic encoding *)

From Coq Require Import Ascii String.
From Verif Require Import Spec Outcome State Base TextSpec ModelText EncodeSpec ModelEncode Text Read Encode.
#[local] Open Scope char_scope.
#[local] Open Scope Z_scope.

(** ** The clauses *)

Definition alo (v n : Z) : clause := map (fun y => mkLit v y true) (loop 0 n).
Definition amo (v n : Z) : list clause :=
  List.concat (map (fun p => map (fun q => [mkLit v p false; mkLit v q false]) (loop (p + 1) n)) (loop 0 n)).
Fixpoint quad_extra (v : Z) (ds : list Z) : list clause :=
  match ds with [] => [] | d :: ds' => (alo v d :: amo v d) ++ quad_extra (v + 1) ds' end.
Definition quad_cnf (p : problem) : list clause := quad_extra 1 (doms p) ++ clauses p.

Lemma in_amo v n c : In c (amo v n) <-> exists p q, 0 <= p < q /\ q < n /\ c = [mkLit v p false; mkLit v q false].
Proof.
  unfold amo. rewrite in_concat. split.
  - intros (x & Hx & Hc). apply in_map_iff in Hx. destruct Hx as (p & <- & Hp). apply in_loop in Hp.
    apply in_map_iff in Hc. destruct Hc as (q & <- & Hq). apply in_loop in Hq. exists p, q. split; [lia|]. split; [lia|auto].
  - intros (p & q & H1 & H2 & ->). exists (map (fun q => [mkLit v p false; mkLit v q false]) (loop (p + 1) n)). split.
    + apply in_map_iff. exists p. split; auto. apply in_loop. lia.
    + apply in_map_iff. exists q. split; auto. apply in_loop. lia.
Qed.

Lemma in_quad_extra : forall ds v c, In c (quad_extra v ds) <->
  exists i d, nth_error ds i = Some d /\ (c = alo (v + Z.of_nat i) d \/ In c (amo (v + Z.of_nat i) d)).
Proof.
  induction ds as [|d ds IH]; intros v c.
  - simpl. split; [tauto|]. intros (i & d & H & _). destruct i; discriminate.
  - cbn [quad_extra]. rewrite in_app_iff, IH. split.
    + intros [H|(i & d' & H & K)].
      * exists 0%nat, d. split; auto. replace (v + Z.of_nat 0) with v by lia. destruct H; auto.
      * exists (S i), d'. split; auto. replace (v + Z.of_nat (S i)) with (v + 1 + Z.of_nat i) by lia. auto.
    + intros (i & d' & H & K). destruct i as [|i].
      * left. simpl in H. injection H as <-. replace (v + Z.of_nat 0) with v in K by lia. destruct K; [left|right]; auto.
      * right. exists i, d'. split; auto. replace (v + 1 + Z.of_nat i) with (v + Z.of_nat (S i)) by lia. auto.
Qed.

Lemma nth_doms p i d : nth_error (doms p) i = Some d -> domsize p (1 + Z.of_nat i) = d /\ 1 <= 1 + Z.of_nat i <= nvars p.
Proof.
  intro H. split.
  - unfold domsize. destruct (Z.leb_spec 1 (1 + Z.of_nat i)); [|lia]. replace (Z.to_nat (1 + Z.of_nat i - 1)) with i by lia.
    apply nth_error_nth. auto.
  - assert (i < length (doms p))%nat by (apply nth_error_Some; congruence). unfold nvars. lia.
Qed.

Lemma doms_nth p v : 1 <= v <= nvars p -> exists i, v = 1 + Z.of_nat i /\ nth_error (doms p) i = Some (domsize p v).
Proof.
  intro H. exists (Z.to_nat (v - 1)). split; [lia|]. unfold domsize. destruct (Z.leb_spec 1 v); [|lia].
  apply nth_error_nth'. unfold nvars in H. lia.
Qed.

(** The models correspond. *)
Theorem quad_models p : wf p ->
  (forall a, is_model p a -> atoms_hold (fun v d => a v =? d) (quad_cnf p)) /\
  (forall b, atoms_hold b (quad_cnf p) -> exists a, is_model p a /\
     forall v d, 1 <= v <= nvars p -> 0 <= d < domsize p v -> (b v d = true <-> a v = d)).
Proof.
  intros (W1 & W2). split.
  - intros a (L & M) c Hc. unfold quad_cnf in Hc. apply in_app_or in Hc. destruct Hc as [Hc|Hc].
    + apply in_quad_extra in Hc. destruct Hc as (i & d & Hn & Hc). destruct (nth_doms p i d Hn) as (Hd & Hr).
      specialize (L _ Hr). rewrite Hd in L. destruct Hc as [->|Hc].
      * exists (mkLit (1 + Z.of_nat i) (a (1 + Z.of_nat i)) true). split.
        -- apply in_map_iff. exists (a (1 + Z.of_nat i)). split; auto. apply in_loop. lia.
        -- cbn. lia.
      * apply in_amo in Hc. destruct Hc as (x & y & H1 & H2 & ->). set (v := 1 + Z.of_nat i) in *.
        destruct (Z.eq_dec (a v) x) as [E|E].
        -- exists (mkLit v y false). split; [right; left; auto|]. cbn [lvar lval leq]. apply Z.eqb_neq. lia.
        -- exists (mkLit v x false). split; [left; auto|]. cbn [lvar lval leq]. apply Z.eqb_neq. lia.
    + destruct (M c Hc) as (l & Hl & H). exists l. split; auto. unfold lit_holds in H. cbn beta. destruct (leq l); lia.
  - intros b H.
    assert (ALO : forall v, 1 <= v <= nvars p -> exists d, 0 <= d < domsize p v /\ b v d = true).
    { intros v Hv. destruct (doms_nth p v Hv) as (i & -> & Hn).
      destruct (H (alo (1 + Z.of_nat i) (domsize p (1 + Z.of_nat i)))) as (l & Hl & Hb).
      - unfold quad_cnf. apply in_or_app. left. apply in_quad_extra. exists i, (domsize p (1 + Z.of_nat i)). auto.
      - apply in_map_iff in Hl. destruct Hl as (y & <- & Hy). apply in_loop in Hy. exists y. auto. }
    assert (AMO : forall v x y, 1 <= v <= nvars p -> 0 <= x < y -> y < domsize p v -> b v x = true -> b v y = true -> False).
    { intros v x y Hv Hx Hy Bx By. destruct (doms_nth p v Hv) as (i & E & Hn).
      destruct (H [mkLit v x false; mkLit v y false]) as (l & Hl & Hb).
      - unfold quad_cnf. apply in_or_app. left. apply in_quad_extra. exists i, (domsize p v). split; auto. right. rewrite <- E.
        apply in_amo. exists x, y. auto.
      - destruct Hl as [<-|[<-|[]]]; cbn in Hb; congruence. }
    set (a := fun v => match find (b v) (loop 0 (domsize p v)) with Some d => d | None => 0 end).
    assert (A : forall v d, 1 <= v <= nvars p -> 0 <= d < domsize p v -> (b v d = true <-> a v = d)).
    { intros v d Hv Hd. unfold a. destruct (find (b v) (loop 0 (domsize p v))) as [x|] eqn:F.
      - apply find_some in F. destruct F as (Fi & Fb). apply in_loop in Fi. split; [|intros <-; auto].
        intro Bd. destruct (Z.lt_trichotomy x d) as [C|[C|C]]; auto; exfalso.
        + apply (AMO v x d); auto; lia.
        + apply (AMO v d x); auto; lia.
      - exfalso. destruct (ALO v Hv) as (y & Hy & By). assert (N := find_none _ _ F y). rewrite By in N.
        discriminate N. apply in_loop. lia. }
    exists a. split; auto. split.
    + intros v Hv. destruct (ALO v Hv) as (d & Hd & Bd). apply (A v d Hv Hd) in Bd. lia.
    + intros c Hc. destruct (H c) as (l & Hl & Hb); [unfold quad_cnf; apply in_or_app; auto|].
      exists l. split; auto. destruct (W2 c Hc) as (_ & Wl). destruct (Wl l Hl) as (Wv & Wd).
      pose proof (A _ _ Wv Wd) as Al. unfold lit_holds. destruct (leq l).
      * apply Al. auto.
      * intro E. apply Al in E. congruence.
Qed.

(** ** The numbers of atoms and clauses *)

Lemma amo_count v n : 0 <= n -> 2 * Z.of_nat (length (amo v n)) = n * (n - 1).
Proof.
  intro H. unfold amo.
  assert (G : forall k, (k <= Z.to_nat n)%nat ->
    2 * Z.of_nat (length (List.concat (map (fun p => map (fun q => [mkLit v p false; mkLit v q false]) (loop (p + 1) n)) (loop (n - Z.of_nat k) n))))
    = Z.of_nat k * (Z.of_nat k - 1)).
  { induction k as [|k IH]; intro L.
    - rewrite loop_empty by lia. reflexivity.
    - rewrite loop_cons by lia. cbn [map List.concat]. rewrite app_length, map_length, loop_length.
      replace (n - Z.of_nat (S k) + 1) with (n - Z.of_nat k) by lia. specialize (IH ltac:(lia)). lia. }
  specialize (G (Z.to_nat n) (le_n _)). replace (n - Z.of_nat (Z.to_nat n)) with 0 in G by lia.
  rewrite Z2Nat.id in G by lia. exact G.
Qed.

(** The number of clauses, and of atoms, for a variable with [d] values. *)
Definition quad_count (d : Z) : Z := d * (d - 1) / 2 + 1.

Lemma quad_count_ok v d : 0 <= d -> Z.of_nat (length (alo v d :: amo v d)) = quad_count d.
Proof.
  intro H. pose proof (amo_count v d H) as E. unfold quad_count. rewrite <- E.
  rewrite Z.mul_comm, Z.div_mul by lia. simpl length. lia.
Qed.

Lemma quad_extra_count : forall ds v, (forall d, In d ds -> 0 <= d) ->
  Z.of_nat (length (quad_extra v ds)) = zsum (map quad_count ds).
Proof.
  induction ds as [|d ds IH]; intros v H; [reflexivity|]. cbn [quad_extra map]. rewrite app_length, Nat2Z.inj_add.
  rewrite quad_count_ok by (apply H; left; auto). rewrite IH by (intros; apply H; right; auto). reflexivity.
Qed.

Lemma fact_count d : 2 <= d <= 12 ->
  exists f1 f2 f3 f4, fact d = Ok f1 /\ fact (d - 2) = Ok f2 /\ fact 2 = Ok f3 /\ i32 (f2 * f3) = Ok f4 /\ f1 / f4 = d * (d - 1) / 2.
Proof.
  intro H. assert (C : In d [2; 3; 4; 5; 6; 7; 8; 9; 10; 11; 12]).
  { simpl. lia. }
  simpl in C. repeat (destruct C as [<-|C]; [do 4 eexists; repeat split; vm_compute; reflexivity|]). destruct C.
Qed.

(** ** What is written *)

Definition quad_row (c : clause) (l : text) : Prop :=
  words l = map atom_lit_text c \/ words l = (map atom_lit_text c ++ [txt "0"])%list.

Notation wrote := (Encode.wrote quad_row).

Lemma atom_solid l : solid (atom_lit_text l).
Proof.
  apply txt_solid.
  - apply forallb_forall. intros a Ha. unfold atom_lit_text in Ha. apply in_app_or in Ha.
    assert (P : plain a); [|rewrite (plain_solid a P); auto]. unfold plain. destruct Ha as [Ha|Ha].
    + destruct (leq l); simpl in Ha; intuition auto.
    + apply in_app_or in Ha. destruct Ha as [Ha|[Ha|Ha]]; auto; apply num_not_nul in Ha; tauto.
  - unfold atom_lit_text. destruct (num (lvar l)) eqn:E; destruct (leq l); discriminate.
Qed.

Lemma atom_no_lf l : ~ In LF (atom_lit_text l).
Proof.
  unfold atom_lit_text. apply no_lf_app; [destruct (leq l); simpl; intuition discriminate|].
  apply no_lf_app; [apply num_no_lf|]. intros [H|H]; [discriminate|]. exact (num_no_lf _ H).
Qed.

Lemma atom_text_eq v d : atom_text v d = atom_lit_text (mkLit v d true).
Proof. reflexivity. Qed.

Lemma quad_rows_wrote v n : wrote (alo v n :: amo v n) (quad_rows (v, n)).
Proof.
  unfold quad_rows. change (alo v n :: amo v n) with ([alo v n] ++ amo v n). rewrite app_assoc. apply wrote_app.
  - apply wrote_line.
    + rewrite <- (map_map (fun y => atom_text v y) (fun w => (w ++ [SP])%list)). apply in_row_lf.
      intros w Hw. apply in_map_iff in Hw. destruct Hw as (y & <- & _). rewrite atom_text_eq. apply atom_no_lf.
    + left. rewrite <- (map_map (fun y => atom_text v y) (fun w => (w ++ [SP])%list)).
      rewrite <- (app_nil_r (List.concat _)). rewrite words_row.
      * unfold words. simpl. rewrite app_nil_r. unfold alo. rewrite map_map. reflexivity.
      * intros w Hw. apply in_map_iff in Hw. destruct Hw as (y & <- & _). rewrite atom_text_eq. apply atom_solid.
  - unfold amo. apply (wrote_concat _ (fun p => map (fun q => [mkLit v p false; mkLit v q false]) (loop (p + 1) n))).
    intros p _. 
    replace (map (fun q => [mkLit v p false; mkLit v q false]) (loop (p + 1) n))
      with (List.concat (map (fun q => [[mkLit v p false; mkLit v q false]]) (loop (p + 1) n))).
    + apply (wrote_concat _ (fun q => [[mkLit v p false; mkLit v q false]])). intros q _.
      replace ("-" :: atom_text v p ++ SP :: "-" :: atom_text v q ++ [LF])%list
        with ((atom_lit_text (mkLit v p false) ++ SP :: atom_lit_text (mkLit v q false)) ++ [LF])%list
        by (unfold atom_lit_text, atom_text; simpl; rewrite <- !app_assoc; simpl; rewrite <- !app_assoc; reflexivity).
      apply wrote_line.
      * apply no_lf_app; [apply atom_no_lf|]. intros [H|H]; [discriminate|exact (atom_no_lf _ H)].
      * left. rewrite words_word by apply atom_solid. rewrite words_one by apply atom_solid. reflexivity.
    + induction (loop (p + 1) n) as [|q qs IH]; auto. simpl. rewrite IH. reflexivity.
Qed.

(** ** Reading *)

Definition var_list (ds : list Z) : list (Z * Z) :=
  combine (map (fun i => 1 + Z.of_nat i) (seq 0 (length ds))) ds.

Fixpoint vars_from (v : Z) (ds : list Z) : list (Z * Z) :=
  match ds with [] => [] | d :: ds' => (v, d) :: vars_from (v + 1) ds' end.

Lemma quad_comment s l : quad_line s ("c" :: l) = Ok s.
Proof. unfold quad_line. cbn [cstr]. change (Ascii.eqb "c" NUL) with false. reflexivity. Qed.

Lemma quad_domains : forall sizes v ds s, domain_lines v sizes ds -> 0 <= v ->
  v + Z.of_nat (length sizes) - 1 <= int_max -> (forall d, In d sizes -> 2 <= d <= 12) ->
  0 <= q_clause s -> 0 <= q_var s -> q_clause s + zsum (map quad_count sizes) <= int_max -> q_var s + zsum sizes <= int_max ->
  exists g, foldM quad_line ds s =
    Ok (mkQuad g (q_clause s + zsum (map quad_count sizes)) (q_var s + zsum sizes) (q_done s)
          (q_list s ++ vars_from v sizes) (q_out s)).
Proof.
  induction sizes as [|d sizes IH]; intros v ds s H Hv Hn Hs Hc Hq Bc Bv.
  - destruct ds; [|destruct H]. exists (q_regs s). simpl. rewrite app_nil_r, !Z.add_0_r. destruct s; reflexivity.
  - destruct ds as [|l ds]; [destruct H|]. destruct H as (H1 & H2). simpl length in Hn. cbn [map vars_from] in *.
    change (zsum (d :: sizes)) with (d + zsum sizes) in *.
    change (zsum (quad_count d :: map quad_count sizes)) with (quad_count d + zsum (map quad_count sizes)) in *.
    destruct (Hs d (or_introl eq_refl)) as (Hd1 & Hd2).
    assert (S1 : 0 <= zsum sizes) by (apply zsum_nonneg; intros x Hx; specialize (Hs x (or_intror Hx)); lia).
    assert (S2 : 0 <= zsum (map quad_count sizes)).
    { apply zsum_nonneg. intros x Hx. apply in_map_iff in Hx. destruct Hx as (y & <- & Hy).
      specialize (Hs y (or_intror Hy)). unfold quad_count. assert (0 <= y * (y - 1)) by nia.
      assert (0 <= y * (y - 1) / 2) by (apply Z.div_pos; lia). lia. }
    assert (Q : 1 <= quad_count d).
    { unfold quad_count. assert (0 <= d * (d - 1)) by nia. assert (0 <= d * (d - 1) / 2) by (apply Z.div_pos; lia). lia. }
    destruct (scan_domain_line (q_regs s) v d l H1) as (N & (r & El) & E); [unfold int_ok; lia|unfold int_ok, int_max; lia|].
    destruct (fact_count d (conj Hd1 Hd2)) as (f1 & f2 & f3 & f4 & E1 & E2 & E3 & E4 & E5).
    set (s1 := mkQuad (mkRegs (Some v) (Some d) (g_ch (q_regs s))) (q_clause s + quad_count d) (q_var s + d)
                 (q_done s) (q_list s ++ [(v, d)]) (q_out s)).
    assert (ES : quad_line s l = Ok s1).
    { unfold quad_line. rewrite cstr_id by auto. rewrite El at 1. cbn beta iota. unfold quad_domain. rewrite E. cbn [bind get g_var g_val].
      destruct (Z.ltb_spec d 0); [lia|]. rewrite i32_ok by lia. cbn [bind]. rewrite E1. cbn [bind].
      rewrite (i32_ok (d - 2)) by (unfold int_max; lia). cbn [bind]. rewrite E2. cbn [bind]. rewrite E3. cbn [bind]. rewrite E4. cbn [bind]. rewrite E5.
      unfold quad_count in *. rewrite i32_ok by lia. cbn [bind]. rewrite i32_ok by lia. cbn [bind].
      unfold s1, quad_count. rewrite Z.add_assoc. reflexivity. }
    cbn [foldM]. rewrite ES. cbn [bind].
    destruct (IH (v + 1) ds s1 H2) as (g & EG); try (unfold s1; cbn [q_clause q_var]; lia); [intros; apply Hs; right; auto|].
    exists g. rewrite EG. unfold s1. cbn [q_clause q_var q_done q_list q_out]. f_equal.
    rewrite <- app_assoc. simpl. f_equal; lia.
Qed.

Lemma quad_word_lit s l : int_ok (lvar l) -> lvar l <> 0 -> int_ok (lval l) ->
  exists g, quad_word s (lit_text l) =
    Ok (mkQuad g (q_clause s) (q_var s) (q_done s) (q_list s) (q_out s ++ atom_lit_text l ++ [SP])).
Proof.
  intros Hv Hn Hd. destruct l as [v d e]. cbn [lvar lval] in *. unfold lit_text, quad_word, atom_lit_text. cbn [lvar lval leq].
  destruct e.
  - rewrite scan_eq by auto. cbn. rewrite (proj2 (Z.eqb_neq v 0) Hn). eexists. reflexivity.
  - rewrite scan_ne by auto. cbn [bind get g_var]. rewrite (proj2 (Z.eqb_neq v 0) Hn).
    cbn [bind get g_ch]. change (Ascii.eqb "!" "!") with true. cbn iota. rewrite rescan_ne by auto. cbn.
    eexists. reflexivity.
Qed.

Lemma quad_words : forall c s, (forall l, In l c -> int_ok (lvar l) /\ lvar l <> 0 /\ int_ok (lval l)) ->
  exists g, foldM quad_word (map lit_text c ++ [txt "0"]) s =
    Ok (mkQuad g (q_clause s) (q_var s) (q_done s) (q_list s)
          (q_out s ++ List.concat (map (fun w => w ++ [SP]) (map atom_lit_text c)))).
Proof.
  induction c as [|l c IH]; intros s H.
  - destruct s as [[gv gd gch] a b d e o]. eexists. cbn [map app foldM]. unfold quad_word. cbn [q_regs].
    rewrite scan_zero. cbn. rewrite app_nil_r. reflexivity.
  - destruct (H l (or_introl eq_refl)) as (H1 & H2 & H3). destruct (quad_word_lit s l H1 H2 H3) as (g & E).
    destruct (IH (mkQuad g (q_clause s) (q_var s) (q_done s) (q_list s) (q_out s ++ atom_lit_text l ++ [SP]))) as (g' & E').
    { intros; apply H; right; auto. }
    exists g'. cbn [map app foldM]. rewrite E. cbn [bind]. rewrite E'. cbn [q_clause q_var q_done q_list q_out List.concat].
    rewrite <- !app_assoc. reflexivity.
Qed.

Lemma quad_clause_line s c l : clause_line c l -> q_done s = true ->
  (forall l, In l c -> int_ok (lvar l) /\ lvar l <> 0 /\ int_ok (lval l)) ->
  exists g t, quad_line s l = Ok (mkQuad g (q_clause s) (q_var s) true (q_list s) (q_out s ++ t)) /\ wrote [c] t.
Proof.
  intros W Dn H. destruct (clause_line_chars c l W) as (N & a & r & El & C1 & C2 & C3).
  destruct (quad_words c s H) as (g & E). exists g.
  exists ((List.concat (map (fun w => w ++ [SP]) (map atom_lit_text c)) ++ txt "0") ++ [LF])%list. split.
  - assert (Q : quad_line s l = let* s := foldM quad_word (line_words [] l) (quad_first s) in Ok (q_write s (txt "0" ++ [LF]))).
    { unfold quad_line. rewrite cstr_id by auto. rewrite El. clear -C1 C2 C3.
      destruct a as [[] [] [] [] [] [] [] []]; try reflexivity; congruence. }
    rewrite Q, line_words_eq, W. unfold quad_first. rewrite Dn. rewrite E. cbn [bind]. unfold q_write. cbn.
    rewrite Dn, <- !app_assoc. reflexivity.
  - apply wrote_line.
    + apply no_lf_app; [|simpl; intuition discriminate]. apply in_row_lf. intros w Hw. apply in_map_iff in Hw.
      destruct Hw as (x & <- & _). apply atom_no_lf.
    + right. rewrite words_row; [reflexivity|]. intros w Hw. apply in_map_iff in Hw. destruct Hw as (x & <- & _). apply atom_solid.
Qed.

Lemma quad_clause_lines C cs : Forall2 clause_line C cs -> forall s, q_done s = true ->
  (forall c l, In c C -> In l c -> int_ok (lvar l) /\ lvar l <> 0 /\ int_ok (lval l)) ->
  exists s' t, foldM quad_line cs s = Ok s' /\ q_out s' = (q_out s ++ t)%list /\ wrote C t.
Proof.
  intro H. induction H as [|c l C cs H HH IH]; intros s Dn HI.
  - exists s, []. split; auto. split; [rewrite app_nil_r; auto|apply wrote_nil].
  - destruct (quad_clause_line s c l H Dn) as (g & t & E & Wt). { intros x Hx. apply (HI c x); [left; auto|auto]. }
    destruct (IH (mkQuad g (q_clause s) (q_var s) true (q_list s) (q_out s ++ t)) eq_refl) as (s' & t' & E' & O & Wt').
    { intros; eapply HI; [right|]; eauto. }
    exists s', (t ++ t')%list. cbn [foldM]. rewrite E. cbn [bind]. split; auto. split.
    + rewrite O. cbn. rewrite app_assoc. auto.
    + apply (wrote_app quad_row [c] t C t'); auto.
Qed.

(** The first clause line behaves as if the extra clauses had been written before it. *)
Lemma quad_first_line s c l : clause_line c l -> quad_line s l = quad_line (quad_first s) l.
Proof.
  intro W. destruct (clause_line_chars c l W) as (N & a & r & El & C1 & C2 & C3).
  assert (Q : forall s, quad_line s l = let* s := foldM quad_word (line_words [] l) (quad_first s) in Ok (q_write s (txt "0" ++ [LF]))).
  { intro s0. unfold quad_line. rewrite cstr_id by auto. rewrite El. clear -C1 C2 C3.
    destruct a as [[] [] [] [] [] [] [] []]; try reflexivity; congruence. }
  rewrite !Q. replace (quad_first (quad_first s)) with (quad_first s); auto.
  unfold quad_first. destruct (q_done s) eqn:E; [rewrite E|]; reflexivity.
Qed.

Lemma quad_extra_wrote : forall ds v, wrote (quad_extra v ds) (List.concat (map quad_rows (vars_from v ds))).
Proof.
  induction ds as [|d ds IH]; intro v; [apply wrote_nil|]. cbn [vars_from map List.concat quad_extra].
  apply wrote_app; [apply quad_rows_wrote|apply IH].
Qed.

Definition quad_vars (p : problem) : Z := zsum (doms p).
Definition quad_clauses (p : problem) : Z := Z.of_nat (length (clauses p)) + zsum (map quad_count (doms p)).

Lemma quad_cnf_vars p : wf p -> forall c l, In c (quad_cnf p) -> In l c -> 0 < lvar l.
Proof.
  intros (W1 & W2) c l Hc Hl. unfold quad_cnf in Hc. apply in_app_or in Hc. destruct Hc as [Hc|Hc].
  - apply in_quad_extra in Hc. destruct Hc as (i & d & Hn & [->|Hc]).
    + unfold alo in Hl. apply in_map_iff in Hl. destruct Hl as (y & <- & _). cbn [lvar]. lia.
    + apply in_amo in Hc. destruct Hc as (a & b & _ & _ & ->). destruct Hl as [<-|[<-|[]]]; cbn [lvar]; lia.
  - destruct (W2 c Hc) as (_ & Wl). destruct (Wl l Hl) as (R & _). lia.
Qed.

Theorem quadratic_written p t : wf p -> clauses p <> [] -> (forall d, In d (doms p) -> d <= 12) ->
  nvars p <= int_max -> quad_vars p <= int_max -> quad_clauses p <= int_max ->
  documented_as (txt "cnf") p t -> lines_below 3000 t ->
  exists t', quadratic_encode t = Ok t' /\ atom_cnf (quad_vars p) (quad_clauses p) (quad_cnf p) t'.
Proof.
  intros W NC D12 F1 F2 F3 (ls & hd & ds & cs & HL & FL & (Hs & Hh) & HD & HC) LB. pose proof W as (W1 & W2).
  assert (SN : 0 <= zsum (map quad_count (doms p))).
  { apply zsum_nonneg. intros x Hx. apply in_map_iff in Hx. destruct Hx as (y & <- & Hy).
    specialize (W1 y Hy). unfold quad_count. assert (0 <= y * (y - 1)) by nia.
    assert (0 <= y * (y - 1) / 2) by (apply Z.div_pos; lia). lia. }
  unfold quad_clauses, quad_vars in *.
  unfold quadratic_encode. rewrite (getlines_has t ls HL (LB ls HL)). rewrite (fold_comments quad_line quad_comment), FL.
  destruct (scan_header_line no_regs _ _ hd Hs Hh) as (N & (r & El) & E); [unfold int_ok, nvars in *; lia|unfold int_ok; lia|].
  assert (EH : quad_line quad_start hd = Ok (mkQuad (mkRegs (Some (nvars p)) (Some (Z.of_nat (length (clauses p)))) None)
              (Z.of_nat (length (clauses p))) 0 false [] [])).
  { unfold quad_line. rewrite cstr_id by auto. rewrite El at 1. cbn beta iota. unfold quad_problem.
    cbn [q_regs quad_start]. rewrite E. cbn [bind get g_val]. change (q_clause quad_start) with 0. rewrite Z.add_0_l. rewrite i32_ok by (unfold int_max in *; lia). reflexivity. }
  cbn [foldM]. rewrite EH. cbn [bind].
  rewrite foldM_app.
  match goal with |- context [foldM quad_line ds ?s] => destruct (quad_domains (doms p) 1 ds s HD) as (g & EG); cbn [q_clause q_var]; try lia end.
  { unfold nvars in F1. lia. }
  { intros d Hd. specialize (W1 d Hd). specialize (D12 d Hd). lia. }
  cbn [q_clause q_var q_done q_list q_out] in EG. rewrite EG. cbn [bind].
  assert (HI : forall c l, In c (clauses p) -> In l c -> int_ok (lvar l) /\ lvar l <> 0 /\ int_ok (lval l)).
  { intros c l Hc Hl. apply (lit_ints p l W F1); [intros d Hd; specialize (D12 d Hd); unfold int_max; lia|].
    destruct (W2 c Hc) as (_ & Wl). apply Wl. auto. }
  set (s1 := mkQuad _ _ _ _ _ _).
  assert (EF : foldM quad_line cs s1 = foldM quad_line cs (quad_first s1)).
  { destruct HC as [|c l C cs Hcl HC]; [congruence|]. cbn [foldM]. rewrite (quad_first_line s1 c l Hcl). reflexivity. }
  rewrite EF. destruct (quad_clause_lines _ _ HC (quad_first s1) eq_refl HI) as (s2 & t2 & E2 & O2 & Wt).
  rewrite E2. cbn [bind]. eexists. split; [reflexivity|]. rewrite O2. unfold quad_first, s1.
  cbn [q_done q_out q_var q_clause q_list app]. rewrite !Z.add_0_l.
  set (nv := zsum (doms p)). set (nc := Z.of_nat (length (clauses p)) + zsum (map quad_count (doms p))).
  pose proof (wrote_app _ _ _ _ _ (quad_extra_wrote (doms p) 1) Wt) as (rows & Er & Nr & Fr).
  split; [exact (quad_cnf_vars p W)|].
  exists (txt "p cnf " ++ put nv ++ num nc)%list, rows. split; [|split].
  - split.
    + intros l [<-|Hl]; [|auto]. apply no_lf_app; [simpl; intuition discriminate|]. unfold put. apply no_lf_app; [|apply num_no_lf].
      apply no_lf_app; [apply num_no_lf|simpl; intuition discriminate].
    + left. rewrite unlines_cons, <- Er, <- !app_assoc. reflexivity.
  - change (txt "p cnf " ++ put nv ++ num nc)%list with (txt "p" ++ SP :: txt "cnf" ++ SP :: put nv ++ num nc)%list.
    rewrite words_word by (apply txt_solid; [reflexivity|discriminate]).
    rewrite words_word by (apply txt_solid; [reflexivity|discriminate]). unfold put. rewrite <- app_assoc. simpl app.
    rewrite words_word by apply num_solid. rewrite words_one by apply num_solid. reflexivity.
  - exact Fr.
Qed.

Lemma quad_cnf_count p : wf p -> Z.of_nat (length (quad_cnf p)) = quad_clauses p.
Proof.
  intros (W1 & _). unfold quad_cnf, quad_clauses. rewrite app_length, Nat2Z.inj_add, quad_extra_count; [lia|].
  intros d Hd. specialize (W1 d Hd). lia.
Qed.
