(** * The linear encoding *)

From Coq Require Import Ascii String.
From Verif Require Import Spec Outcome State Base TextSpec ModelText EncodeSpec ModelEncode Text Read Encode Quad.
#[local] Open Scope char_scope.
#[local] Open Scope Z_scope.

(** ** The clauses *)

(** Number of Boolean variables for a variable with [d] values. *)
Definition width (d : Z) : Z := if d =? 2 then 1 else 2 * d - 1.

Definition lin_block (x d : Z) : cnf :=
  if 2 <? d then
    map (fun j => x + j) (loop 0 d) ::
    [[- (x + d); x]; [x + d; - x]] ++
    List.concat (map (fun j => [[- (x + d + 1 + j); x + d + j; x + 1 + j]; [x + d + 1 + j; - (x + d + j)];
                           [x + d + 1 + j; - (x + 1 + j)]]) (loop 0 (d - 2))) ++
    map (fun j => [- (x + d + j); - (x + 1 + j)]) (loop 0 (d - 1))
  else [].

Fixpoint lin_blocks (x : Z) (ds : list Z) : cnf :=
  match ds with [] => [] | d :: ds' => lin_block x d ++ lin_blocks (x + width d) ds' end.

(** The first Boolean variable of the variable [v]. *)
Definition start (p : problem) (v : Z) : Z := 1 + zsum (map width (firstn (Z.to_nat (v - 1)) (doms p))).

Definition lin_lit (p : problem) (l : lit) : Z :=
  let x := start p (lvar l) in
  if 2 <? domsize p (lvar l) then (if leq l then x + lval l else - (x + lval l))
  else if lval l =? 1 then x else - x.

Definition lin_cnf (p : problem) : cnf := lin_blocks 1 (doms p) ++ map (map (lin_lit p)) (clauses p).

Definition lin_used (p : problem) : Z := zsum (map width (doms p)).

(** ** Places of the blocks *)

Lemma in_lin_blocks : forall ds x c, In c (lin_blocks x ds) <->
  exists i d, nth_error ds i = Some d /\ In c (lin_block (x + zsum (map width (firstn i ds))) d).
Proof.
  induction ds as [|d ds IH]; intros x c.
  - simpl. split; [tauto|]. intros (i & d & H & _). destruct i; discriminate.
  - cbn [lin_blocks]. rewrite in_app_iff, IH. split.
    + intros [H|(i & d' & H & K)].
      * exists 0%nat, d. split; auto. simpl. rewrite Z.add_0_r. auto.
      * exists (S i), d'. split; auto. cbn [firstn map zsum fold_right]. fold (zsum (map width (firstn i ds))). rewrite Z.add_assoc. auto.
    + intros (i & d' & H & K). destruct i as [|i].
      * left. simpl in H. injection H as <-. simpl in K. rewrite Z.add_0_r in K. auto.
      * right. exists i, d'. split; auto. cbn [firstn map zsum fold_right] in K. fold (zsum (map width (firstn i ds))) in K.
        rewrite Z.add_assoc in K. auto.
Qed.

Lemma in_blocks p c : In c (lin_blocks 1 (doms p)) <->
  exists v, 1 <= v <= nvars p /\ In c (lin_block (start p v) (domsize p v)).
Proof.
  rewrite in_lin_blocks. split.
  - intros (i & d & H & K). exists (1 + Z.of_nat i). destruct (nth_doms p i d H) as (E & R). split; auto.
    unfold start. rewrite E. replace (Z.to_nat (1 + Z.of_nat i - 1)) with i by lia. auto.
  - intros (v & R & K). destruct (doms_nth p v R) as (i & E & H). exists i, (domsize p v). split; auto.
    unfold start in K. rewrite E in K at 1. replace (Z.to_nat (1 + Z.of_nat i - 1)) with i in K by lia. auto.
Qed.

Lemma width_pos d : 2 <= d -> 1 <= width d.
Proof. unfold width. destruct (d =? 2) eqn:E; lia. Qed.

Lemma start_next p v : 1 <= v <= nvars p -> start p (v + 1) = start p v + width (domsize p v).
Proof.
  intro R. destruct (doms_nth p v R) as (i & E & H). unfold start.
  replace (Z.to_nat (v + 1 - 1)) with (S i) by lia. replace (Z.to_nat (v - 1)) with i by lia.
  assert (G : forall (ds : list Z) i d, nth_error ds i = Some d -> firstn (S i) ds = firstn i ds ++ [d]).
  { clear. induction ds as [|x ds IH]; intros i d H; [destruct i; discriminate|]. destruct i as [|i].
    - simpl in H. injection H as ->. reflexivity.
    - simpl in H. apply IH in H. change (firstn (S (S i)) (x :: ds)) with (x :: firstn (S i) ds). rewrite H. reflexivity. }
  rewrite (G _ _ _ H), map_app, zsum_app. cbn [map zsum fold_right]. lia.
Qed.

Lemma start_one p : start p 1 = 1.
Proof. reflexivity. Qed.

(** ** From an assignment to an interpretation *)

(** The value of the Boolean variable at [off] in the block of a variable with value [x]. *)
Definition bit (d x off : Z) : bool := if d =? 2 then x =? 1 else if off <? d then x =? off else x <=? off - d.

Fixpoint decode (a : assignment) (v : Z) (ds : list Z) (z : Z) : bool :=
  match ds with
  | [] => false
  | d :: ds' => if z <? width d then bit d (a v) z else decode a (v + 1) ds' (z - width d)
  end.

Lemma decode_at a : forall ds v i d off, (forall x, In x ds -> 2 <= x) -> nth_error ds i = Some d -> 0 <= off < width d ->
  decode a v ds (zsum (map width (firstn i ds)) + off) = bit d (a (v + Z.of_nat i)) off.
Proof.
  induction ds as [|x ds IH]; intros v i d off W H R; [destruct i; discriminate|]. destruct i as [|i].
  - simpl in H. injection H as ->. cbn [firstn map zsum fold_right decode]. rewrite Z.add_0_l.
    destruct (Z.ltb_spec off (width d)); [|lia]. replace (v + Z.of_nat 0) with v by lia. reflexivity.
  - simpl in H. cbn [firstn map zsum fold_right decode]. fold (zsum (map width (firstn i ds))).
    assert (Wx : 1 <= width x) by (apply width_pos; apply W; left; auto).
    assert (Z0 : 0 <= zsum (map width (firstn i ds))).
    { apply zsum_nonneg. intros y Hy. apply in_map_iff in Hy. destruct Hy as (q & <- & Hq).
      assert (In q ds) by (rewrite <- (firstn_skipn i ds); apply in_or_app; auto).
      pose proof (width_pos q (W q (or_intror H0))). lia. }
    destruct (Z.ltb_spec (width x + zsum (map width (firstn i ds)) + off) (width x)); [lia|].
    replace (width x + zsum (map width (firstn i ds)) + off - width x) with (zsum (map width (firstn i ds)) + off) by lia.
    rewrite (IH (v + 1) i d off); auto; [|intros; apply W; right; auto]. f_equal. f_equal. lia.
Qed.

Definition interp (p : problem) (a : assignment) : Z -> bool := fun z => decode a 1 (doms p) (z - 1).

Lemma interp_at p a v off : wf p -> 1 <= v <= nvars p -> 0 <= off < width (domsize p v) ->
  interp p a (start p v + off) = bit (domsize p v) (a v) off.
Proof.
  intros (W1 & _) R O. destruct (doms_nth p v R) as (i & E & H). unfold interp, start.
  replace (Z.to_nat (v - 1)) with i by lia.
  replace (1 + zsum (map width (firstn i (doms p))) + off - 1) with (zsum (map width (firstn i (doms p))) + off) by lia.
  rewrite (decode_at a (doms p) 1 i (domsize p v) off W1 H O). rewrite <- E. reflexivity.
Qed.

Lemma start_pos p v : wf p -> 1 <= v <= nvars p -> 1 <= start p v /\ start p v + width (domsize p v) - 1 <= lin_used p.
Proof.
  intros (W1 & _) R. destruct (doms_nth p v R) as (i & E & H). unfold start, lin_used. replace (Z.to_nat (v - 1)) with i by lia.
  assert (P : forall l, (forall x, In x l -> 2 <= x) -> 0 <= zsum (map width l)).
  { intros l Hl. apply zsum_nonneg. intros y Hy. apply in_map_iff in Hy. destruct Hy as (q & <- & Hq). pose proof (width_pos q (Hl q Hq)). lia. }
  assert (SP : doms p = firstn i (doms p) ++ domsize p v :: skipn (S i) (doms p)).
  { rewrite <- (firstn_skipn i (doms p)) at 1. f_equal. clear -H. revert i H. generalize (doms p) (domsize p v).
    induction l as [|x l IH]; intros z i H; [destruct i; discriminate|]. destruct i as [|i]; simpl in *; [injection H as ->; auto|].
    apply IH in H. exact H. }
  assert (P1 : 0 <= zsum (map width (firstn i (doms p)))).
  { apply P. intros x Hx. apply W1. rewrite SP. apply in_or_app. auto. }
  assert (P2 : 0 <= zsum (map width (skipn (S i) (doms p)))).
  { apply P. intros x Hx. apply W1. rewrite SP. apply in_or_app. right. right. auto. }
  split; [lia|]. rewrite SP at 2. rewrite map_app, zsum_app. cbn [map zsum fold_right].
  fold (zsum (map width (skipn (S i) (doms p)))). lia.
Qed.

(** ** Models *)

(** The Boolean literal for [v=d]. *)
Definition lin_eq (p : problem) (v d : Z) : Z := lin_lit p (mkLit v d true).

Lemma holds_pos b z : 0 < z -> (bool_holds b z <-> b z = true).
Proof. intro H. unfold bool_holds. destruct (Z.ltb_spec 0 z); [tauto|lia]. Qed.
Lemma holds_neg b z : 0 < z -> (bool_holds b (- z) <-> b z = false).
Proof. intro H. unfold bool_holds. destruct (Z.ltb_spec 0 (- z)); [lia|]. rewrite Z.opp_involutive. tauto. Qed.

Lemma in_block x d c : 2 < d -> (In c (lin_block x d) <->
  c = map (fun j => x + j) (loop 0 d) \/ c = [- (x + d); x] \/ c = [x + d; - x] \/
  (exists j, 0 <= j < d - 2 /\ (c = [- (x + d + 1 + j); x + d + j; x + 1 + j] \/ c = [x + d + 1 + j; - (x + d + j)] \/
                            c = [x + d + 1 + j; - (x + 1 + j)])) \/
  (exists j, 0 <= j < d - 1 /\ c = [- (x + d + j); - (x + 1 + j)])).
Proof.
  intro H. unfold lin_block. destruct (Z.ltb_spec 2 d); [|lia]. cbn [In app]. rewrite in_app_iff, in_concat, in_map_iff.
  split.
  - intros [E|[E|[E|[(y & Hy & Hc)|(j & E & Hj)]]]]; auto.
    + apply in_map_iff in Hy. destruct Hy as (j & <- & Hj). apply in_loop in Hj.
      right. right. right. left. exists j. split; [lia|]. cbn [In] in Hc. destruct Hc as [<-|[<-|[<-|[]]]]; auto.
    + apply in_loop in Hj. do 4 right. exists j. split; [lia|auto].
  - intros [E|[E|[E|[(j & Hj & E)|(j & Hj & E)]]]]; auto.
    + do 3 right. left. eexists. split; [apply in_map_iff; exists j; split; [reflexivity|apply in_loop; lia]|].
      cbn [In]. destruct E as [E|[E|E]]; auto.
    + do 4 right. exists j. split; auto. apply in_loop. lia.
Qed.

Theorem lin_models p : wf p -> two_valued_positive p ->
  (forall a, is_model p a -> cnf_holds (interp p a) (lin_cnf p) /\
     forall v d, 1 <= v <= nvars p -> 0 <= d < domsize p v -> (bool_holds (interp p a) (lin_eq p v d) <-> a v = d)) /\
  (forall b, cnf_holds b (lin_cnf p) -> exists a, is_model p a /\
     forall v d, 1 <= v <= nvars p -> 0 <= d < domsize p v -> (bool_holds b (lin_eq p v d) <-> a v = d)).
Proof.
  intros W TV. pose proof W as (W1 & W2).
  assert (DOM2 : forall v, 1 <= v <= nvars p -> 2 <= domsize p v).
  { intros v R. destruct (doms_nth p v R) as (i & _ & H). apply W1. eapply nth_error_In; eauto. }
  (* a literal of a clause, given the correspondence for equalities *)
  assert (LIT : forall b a, (forall v d, 1 <= v <= nvars p -> 0 <= d < domsize p v -> (bool_holds b (lin_eq p v d) <-> a v = d)) ->
            forall c l, In c (clauses p) -> In l c -> (bool_holds b (lin_lit p l) <-> lit_holds a l)).
  { intros b a C c l Hc Hl. destruct (W2 c Hc) as (_ & Wl). destruct (Wl l Hl) as (Rv & Rd).
    pose proof (C (lvar l) (lval l) Rv Rd) as E. pose proof (start_pos p (lvar l) W Rv) as (S1 & _).
    pose proof (TV c l Hc Hl) as T. destruct l as [v d e]. cbn [lvar lval leq] in *. unfold lit_holds. cbn [lvar lval leq].
    destruct e; [exact E|]. unfold lin_eq, lin_lit in *. cbn [lvar lval leq] in *.
    destruct (Z.ltb_spec 2 (domsize p v)).
    - rewrite holds_neg by lia. rewrite holds_pos in E by lia. rewrite <- E. destruct (b (start p v + d)); intuition congruence.
    - assert (domsize p v = 2) by (pose proof (DOM2 v Rv); lia). discriminate (T H0). }
  split.
  - intros a (L & M).
    assert (B : forall v off, 1 <= v <= nvars p -> 0 <= off < width (domsize p v) ->
              interp p a (start p v + off) = bit (domsize p v) (a v) off) by (intros; apply interp_at; auto).
    assert (C : forall v d, 1 <= v <= nvars p -> 0 <= d < domsize p v -> (bool_holds (interp p a) (lin_eq p v d) <-> a v = d)).
    { intros v d Rv Rd. pose proof (start_pos p v W Rv) as (S1 & _). pose proof (DOM2 v Rv) as D2. specialize (L v Rv).
      unfold lin_eq, lin_lit. cbn [lvar lval leq]. destruct (Z.ltb_spec 2 (domsize p v)).
      - rewrite holds_pos by lia. rewrite B by (auto; unfold width; destruct (domsize p v =? 2) eqn:E2; lia). unfold bit.
        destruct (Z.eqb_spec (domsize p v) 2); [lia|]. destruct (Z.ltb_spec d (domsize p v)); lia.
      - assert (E2 : domsize p v = 2) by lia. pose proof (B v 0 Rv) as B0. rewrite Z.add_0_r in B0. unfold width, bit in B0.
        rewrite E2 in *. cbn [Z.eqb Pos.eqb] in B0. specialize (B0 ltac:(lia)).
        destruct (Z.eqb_spec d 1) as [->|N]; [rewrite holds_pos by lia|rewrite holds_neg by lia]; rewrite B0.
        + apply Z.eqb_eq.
        + rewrite Z.eqb_neq. lia. }
    split; auto. intros c Hc. unfold lin_cnf in Hc. apply in_app_or in Hc. destruct Hc as [Hc|Hc].
    + apply in_blocks in Hc. destruct Hc as (v & Rv & Hc). pose proof (start_pos p v W Rv) as (S1 & _). specialize (L v Rv).
      destruct (Z.ltb_spec 2 (domsize p v)) as [D|D]; [|unfold lin_block in Hc; destruct (Z.ltb_spec 2 (domsize p v)); [lia|destruct Hc]].
      apply (in_block _ _ c D) in Hc. set (x := start p v) in *. set (d := domsize p v) in *.
      assert (BX : forall j, 0 <= j < d -> interp p a (x + j) = (a v =? j)).
      { intros j Hj. unfold x. rewrite B by (auto; unfold width; fold d; destruct (d =? 2) eqn:E2; lia). unfold bit. fold d.
        destruct (Z.eqb_spec d 2); [lia|]. destruct (Z.ltb_spec j d); [auto|lia]. }
      assert (BT : forall j, 0 <= j < d - 1 -> interp p a (x + d + j) = (a v <=? j)).
      { intros j Hj. rewrite <- Z.add_assoc. unfold x. rewrite B by (auto; unfold width; fold d; destruct (d =? 2) eqn:E2; lia). unfold bit. fold d.
        destruct (Z.eqb_spec d 2); [lia|]. destruct (Z.ltb_spec (d + j) d); [lia|]. f_equal. lia. }
      assert (BX0 := BX 0 ltac:(lia)). rewrite Z.add_0_r in BX0.
      assert (BT0 := BT 0 ltac:(lia)). rewrite Z.add_0_r in BT0.
      destruct Hc as [->|[->|[->|[(j & Hj & Hc)|(j & Hj & ->)]]]].
      * exists (x + a v). split; [apply in_map_iff; exists (a v); split; auto; apply in_loop; lia|].
        rewrite holds_pos by lia. rewrite BX by lia. lia.
      * destruct (Z.eq_dec (a v) 0) as [E|E].
        -- exists x. split; [right; left; auto|]. rewrite holds_pos by lia. rewrite BX0. lia.
        -- exists (- (x + d)). split; [left; auto|]. rewrite holds_neg by lia. rewrite BT0. lia.
      * destruct (Z.eq_dec (a v) 0) as [E|E].
        -- exists (x + d). split; [left; auto|]. rewrite holds_pos by lia. rewrite BT0. lia.
        -- exists (- x). split; [right; left; auto|]. rewrite holds_neg by lia. rewrite BX0. lia.
      * assert (T1 : interp p a (x + d + 1 + j) = (a v <=? 1 + j)) by (rewrite <- (Z.add_assoc (x + d)); apply BT; lia).
        assert (T0 : interp p a (x + d + j) = (a v <=? j)) by (apply BT; lia).
        assert (X1 : interp p a (x + 1 + j) = (a v =? 1 + j)) by (rewrite <- Z.add_assoc; apply BX; lia).
        destruct Hc as [->|[->| ->]].
        -- destruct (Z_le_gt_dec (a v) j); [|destruct (Z.eq_dec (a v) (1 + j))].
           ++ exists (x + d + j). split; [right; left; auto|]. rewrite holds_pos by lia. first [rewrite T1 by auto; lia|rewrite X1; lia|rewrite T0; lia].
           ++ exists (x + 1 + j). split; [right; right; left; auto|]. rewrite holds_pos by lia. first [rewrite T1 by auto; lia|rewrite X1; lia|rewrite T0; lia].
           ++ exists (- (x + d + 1 + j)). split; [left; auto|]. rewrite holds_neg by lia. first [rewrite T1 by auto; lia|rewrite X1; lia|rewrite T0; lia].
        -- destruct (Z_le_gt_dec (a v) j).
           ++ exists (x + d + 1 + j). split; [left; auto|]. rewrite holds_pos by lia. first [rewrite T1 by auto; lia|rewrite X1; lia|rewrite T0; lia].
           ++ exists (- (x + d + j)). split; [right; left; auto|]. rewrite holds_neg by lia. first [rewrite T1 by auto; lia|rewrite X1; lia|rewrite T0; lia].
        -- destruct (Z.eq_dec (a v) (1 + j)).
           ++ exists (x + d + 1 + j). split; [left; auto|]. rewrite holds_pos by lia. first [rewrite T1 by auto; lia|rewrite X1; lia|rewrite T0; lia].
           ++ exists (- (x + 1 + j)). split; [right; left; auto|]. rewrite holds_neg by lia. first [rewrite T1 by auto; lia|rewrite X1; lia|rewrite T0; lia].
      * assert (T0 : interp p a (x + d + j) = (a v <=? j)) by (apply BT; lia).
        assert (X1 : interp p a (x + 1 + j) = (a v =? 1 + j)) by (rewrite <- Z.add_assoc; apply BX; lia).
        destruct (Z_le_gt_dec (a v) j).
        -- exists (- (x + 1 + j)). split; [right; left; auto|]. rewrite holds_neg by lia. first [rewrite T1 by auto; lia|rewrite X1; lia|rewrite T0; lia].
        -- exists (- (x + d + j)). split; [left; auto|]. rewrite holds_neg by lia. first [rewrite T1 by auto; lia|rewrite X1; lia|rewrite T0; lia].
    + apply in_map_iff in Hc. destruct Hc as (c0 & <- & Hc). destruct (M c0 Hc) as (l & Hl & H).
      exists (lin_lit p l). split; [apply in_map; auto|]. apply (LIT (interp p a) a C c0 l Hc Hl). auto.
  - intros b Hb.
    assert (CL : forall v, 1 <= v <= nvars p -> forall c, In c (lin_block (start p v) (domsize p v)) -> exists z, In z c /\ bool_holds b z).
    { intros v Rv c Hc. apply Hb. unfold lin_cnf. apply in_or_app. left. apply in_blocks. eauto. }
    (* t_j holds iff one of x_0 .. x_j does *)
    assert (BIG : forall v, 1 <= v <= nvars p -> 2 < domsize p v ->
              (exists j, 0 <= j < domsize p v /\ b (start p v + j) = true) /\
              forall i j, 0 <= i < j -> j < domsize p v -> b (start p v + i) = true -> b (start p v + j) = true -> False).
    { intros v Rv D. pose proof (start_pos p v W Rv) as (S1 & _). set (x := start p v) in *. set (d := domsize p v) in *.
      pose proof (fun c H => CL v Rv c (proj2 (in_block x d c D) H)) as IN.
      split.
      - destruct (IN _ (or_introl eq_refl)) as (z & Hz & H). apply in_map_iff in Hz. destruct Hz as (j & <- & Hj). apply in_loop in Hj.
        exists j. split; auto. rewrite holds_pos in H by lia. auto.
      - assert (T : forall i j, 0 <= i -> b (x + i) = true -> (Z.of_nat j + i < d - 1) -> b (x + d + (i + Z.of_nat j)) = true).
        { intros i j Hi Bi. induction j as [|j IH]; intro Hj.
          - replace (i + Z.of_nat 0) with i by lia. destruct (Z.eq_dec i 0) as [->|Ni].
            + destruct (IN [x + d; - x]) as (z & Hz & H); [auto|]. rewrite Z.add_0_r in *.
              destruct Hz as [<-|[<-|[]]]; [rewrite holds_pos in H by lia; auto|]. rewrite holds_neg in H by lia. congruence.
            + destruct (IN [x + d + 1 + (i - 1); - (x + 1 + (i - 1))]) as (z & Hz & H).
              { do 3 right. left. exists (i - 1). split; [lia|]. auto. }
              replace (x + d + 1 + (i - 1)) with (x + d + i) in * by lia. replace (x + 1 + (i - 1)) with (x + i) in * by lia.
              destruct Hz as [<-|[<-|[]]]; [rewrite holds_pos in H by lia; auto|]. rewrite holds_neg in H by lia. congruence.
          - specialize (IH ltac:(lia)). destruct (IN [x + d + 1 + (i + Z.of_nat j); - (x + d + (i + Z.of_nat j))]) as (z & Hz & H).
            { do 3 right. left. exists (i + Z.of_nat j). split; [lia|]. auto. }
            replace (i + Z.of_nat (S j)) with (1 + (i + Z.of_nat j)) by lia.
            destruct Hz as [<-|[<-|[]]].
            + rewrite holds_pos in H by lia. rewrite Z.add_assoc. auto.
            + rewrite holds_neg in H by lia. congruence. }
        intros i j Hi Hj Bi Bj. specialize (T i (Z.to_nat (j - 1 - i)) ltac:(lia) Bi ltac:(lia)).
        replace (i + Z.of_nat (Z.to_nat (j - 1 - i))) with (j - 1) in T by lia.
        destruct (IN [- (x + d + (j - 1)); - (x + 1 + (j - 1))]) as (z & Hz & H).
        { do 4 right. exists (j - 1). split; [lia|auto]. }
        replace (x + 1 + (j - 1)) with (x + j) in * by lia.
        destruct Hz as [<-|[<-|[]]]; rewrite holds_neg in H by lia; congruence. }
    set (a := fun v => if 2 <? domsize p v then match find (fun j => b (start p v + j)) (loop 0 (domsize p v)) with Some d => d | None => 0 end
                       else if b (start p v) then 1 else 0).
    assert (C : forall v d, 1 <= v <= nvars p -> 0 <= d < domsize p v -> (bool_holds b (lin_eq p v d) <-> a v = d)).
    { intros v d Rv Rd. pose proof (start_pos p v W Rv) as (S1 & _). unfold lin_eq, lin_lit, a. cbn [lvar lval leq].
      destruct (Z.ltb_spec 2 (domsize p v)) as [D|D].
      - destruct (BIG v Rv D) as ((y & Hy & By) & U). rewrite holds_pos by lia.
        destruct (find (fun j => b (start p v + j)) (loop 0 (domsize p v))) as [k|] eqn:F.
        + apply find_some in F. destruct F as (Fi & Fb). apply in_loop in Fi. cbn beta in Fb. split; [|intros <-; auto].
          intro Bd. destruct (Z.lt_trichotomy k d) as [K|[K|K]]; auto; exfalso.
          * apply (U k d); auto; lia.
          * apply (U d k); auto; lia.
        + exfalso. assert (N := find_none _ _ F y ltac:(apply in_loop; lia)). cbn beta in N. congruence.
      - assert (E2 : domsize p v = 2) by (pose proof (DOM2 v Rv); lia).
        destruct (Z.eqb_spec d 1) as [->|N]; [rewrite holds_pos by lia|rewrite holds_neg by lia]; destruct (b (start p v)); split; intro; try lia; try congruence; auto. }
    exists a. split; auto. split.
    + intros v Rv. unfold a. destruct (Z.ltb_spec 2 (domsize p v)) as [D|D].
      * destruct (BIG v Rv D) as ((y & Hy & By) & _).
        destruct (find (fun j => b (start p v + j)) (loop 0 (domsize p v))) as [k|] eqn:F; [|lia].
        apply find_some in F. destruct F as (Fi & _). apply in_loop in Fi. auto.
      * pose proof (DOM2 v Rv). destruct (b (start p v)); lia.
    + intros c Hc. destruct (Hb (map (lin_lit p) c)) as (z & Hz & H).
      { unfold lin_cnf. apply in_or_app. right. apply in_map. auto. }
      apply in_map_iff in Hz. destruct Hz as (l & <- & Hl). exists l. split; auto. apply (LIT b a C c l Hc Hl). auto.
Qed.

(** ** The numbers of variables and clauses *)

Lemma lin_vars p : wf p -> forall c z, In c (lin_cnf p) -> In z c -> 1 <= Z.abs z <= lin_used p.
Proof.
  intros W c z Hc Hz. unfold lin_cnf in Hc. apply in_app_or in Hc. destruct Hc as [Hc|Hc].
  - apply in_blocks in Hc. destruct Hc as (v & Rv & Hc). pose proof (start_pos p v W Rv) as (S1 & S2).
    destruct (Z.ltb_spec 2 (domsize p v)) as [D|D]; [|unfold lin_block in Hc; destruct (Z.ltb_spec 2 (domsize p v)); [lia|destruct Hc]].
    apply (in_block _ _ c D) in Hc. unfold width in S2. destruct (Z.eqb_spec (domsize p v) 2); [lia|].
    destruct Hc as [->|[->|[->|[(j & Hj & [->|[->| ->]])|(j & Hj & ->)]]]].
    + apply in_map_iff in Hz. destruct Hz as (j & <- & Hj). apply in_loop in Hj. lia.
    + destruct Hz as [<-|[<-|[]]]; lia.
    + destruct Hz as [<-|[<-|[]]]; lia.
    + destruct Hz as [<-|[<-|[<-|[]]]]; lia.
    + destruct Hz as [<-|[<-|[]]]; lia.
    + destruct Hz as [<-|[<-|[]]]; lia.
    + destruct Hz as [<-|[<-|[]]]; lia.
  - apply in_map_iff in Hc. destruct Hc as (c0 & <- & Hc). apply in_map_iff in Hz. destruct Hz as (l & <- & Hl).
    pose proof W as (_ & W2). destruct (W2 c0 Hc) as (_ & Wl). destruct (Wl l Hl) as (Rv & Rd).
    pose proof (start_pos p (lvar l) W Rv) as (S1 & S2). unfold lin_lit, width in *.
    destruct (Z.ltb_spec 2 (domsize p (lvar l))).
    + destruct (Z.eqb_spec (domsize p (lvar l)) 2); [lia|]. destruct (leq l); lia.
    + pose proof W as (W1 & _). assert (2 <= domsize p (lvar l)).
      { destruct (doms_nth p (lvar l) Rv) as (i & _ & Hn). apply W1. eapply nth_error_In; eauto. }
      destruct (Z.eqb_spec (domsize p (lvar l)) 2); [|lia]. destruct (lval l =? 1); lia.
Qed.

Definition two (d : Z) : Z := if d =? 2 then 1 else 0.

Lemma block_count x d : 2 <= d -> Z.of_nat (length (lin_block x d)) = 4 * (d - 1) - 4 * two d.
Proof.
  intro H. unfold lin_block, two. destruct (Z.ltb_spec 2 d) as [D|D].
  - destruct (Z.eqb_spec d 2); [lia|]. cbn [length app]. rewrite app_length, map_length, loop_length.
    assert (G : forall ks, length (List.concat (map (fun j => [[- (x + d + 1 + j); x + d + j; x + 1 + j]; [x + d + 1 + j; - (x + d + j)];
                           [x + d + 1 + j; - (x + 1 + j)]]) ks)) = (3 * length ks)%nat).
    { induction ks as [|k ks IH]; auto. cbn [map List.concat]. rewrite app_length, IH. simpl. lia. }
    rewrite G, loop_length. clear G. rewrite !Nat2Z.inj_succ, Nat2Z.inj_add, Nat2Z.inj_mul, !Z2Nat.id by lia. lia.
  - destruct (Z.eqb_spec d 2); [|lia]. subst d. reflexivity.
Qed.

Lemma blocks_count : forall ds x, (forall d, In d ds -> 2 <= d) ->
  Z.of_nat (length (lin_blocks x ds)) = zsum (map (fun d => 4 * (d - 1)) ds) - 4 * zsum (map two ds).
Proof.
  induction ds as [|d ds IH]; intros x H; [reflexivity|]. cbn [lin_blocks map]. rewrite app_length, Nat2Z.inj_add.
  rewrite block_count by (apply H; left; auto). rewrite IH by (intros; apply H; right; auto).
  unfold zsum. cbn [fold_right]. lia.
Qed.

Lemma used_count : forall ds, (forall d, In d ds -> 2 <= d) ->
  zsum (map width ds) = zsum (map (fun d => 2 * d - 1) ds) - 2 * zsum (map two ds).
Proof.
  induction ds as [|d ds IH]; intro H; [reflexivity|]. unfold zsum in *. cbn [map fold_right]. rewrite IH by (intros; apply H; right; auto).
  unfold width, two. destruct (Z.eqb_spec d 2); lia.
Qed.

(** ** What is written *)

Definition lin_row (c : list Z) (l : text) : Prop := words l = (map num c ++ [txt "0"])%list.
#[local] Notation lwrote := (Encode.wrote lin_row).

Lemma puts_row zs : List.concat (map put zs) = List.concat (map (fun w => w ++ [SP])%list (map num zs)).
Proof. rewrite map_map. reflexivity. Qed.

Lemma put_wrote zs (g : text) : g = [] \/ g = [SP] -> lwrote [zs] ((List.concat (map put zs) ++ g ++ txt "0") ++ [LF])%list.
Proof.
  intro G. rewrite puts_row. apply wrote_line.
  - apply no_lf_app.
    + apply in_row_lf. intros w Hw. apply in_map_iff in Hw. destruct Hw as (z & <- & _). apply num_no_lf.
    + apply no_lf_app; [destruct G; subst; simpl; intuition discriminate|simpl; intuition discriminate].
  - unfold lin_row. rewrite words_row.
    + f_equal. destruct G; subst; reflexivity.
    + intros w Hw. apply in_map_iff in Hw. destruct Hw as (z & <- & _). apply num_solid.
Qed.

Lemma put_wrote1 zs : lwrote [zs] (List.concat (map put zs) ++ txt "0" ++ [LF])%list.
Proof.
  pose proof (put_wrote zs [] (or_introl eq_refl)) as H. simpl app in H. rewrite <- app_assoc in H. exact H.
Qed.

Lemma num_opp z : 0 < z -> num (- z) = "-" :: num z.
Proof. intro H. destruct z as [|q|q]; try lia. change (- Z.pos q) with (Z.neg q). rewrite num_neg, num_pos. reflexivity. Qed.

Definition l_unread (s s' : lin) : Prop :=
  l_size s' = l_size s /\ l_domain s' = l_domain s /\ l_index s' = l_index s /\ l_done s' = l_done s /\ l_num_var s' = l_num_var s.

Lemma l_write_write s a b : l_write (l_write s a) b = l_write s (a ++ b).
Proof. unfold l_write. cbn. rewrite app_assoc. reflexivity. Qed.

(** The arrays are filled in. *)
Definition ready (p : problem) (s : lin) : Prop :=
  l_size s = Some (nvars p + 1) /\ l_done s = true /\ l_num_var s = nvars p /\ l_domain s 0 = 2 /\
  forall v, 1 <= v <= nvars p -> l_domain s v = domsize p v /\ l_index s v = Some (start p v).

Lemma ready_write p s t : ready p s -> ready p (l_write s t).
Proof. intro H. exact H. Qed.
Lemma ready_regs p s g : ready p s -> ready p (l_set_regs s g).
Proof. intro H. exact H. Qed.

Lemma ready_domain p s v : ready p s -> 1 <= v <= nvars p -> get_domain s v = Ok (domsize p v).
Proof.
  intros (H1 & _ & _ & _ & H2) R. unfold get_domain, l_in. rewrite H1. destruct (Z.leb_spec 0 v); [|lia].
  destruct (Z.ltb_spec v (nvars p + 1)); [|lia]. cbn. f_equal. apply H2. auto.
Qed.

Lemma ready_index p s v : ready p s -> 1 <= v <= nvars p -> get_index s v = Ok (start p v).
Proof.
  intros (H1 & _ & _ & _ & H2) R. unfold get_index, l_in. rewrite H1. destruct (Z.leb_spec 0 v); [|lia].
  destruct (Z.ltb_spec v (nvars p + 1)); [|lia]. cbn. destruct (H2 v R) as (_ & ->). reflexivity.
Qed.

Lemma extra_wrote p s v : wf p -> lin_used p <= int_max -> ready p s -> 1 <= v <= nvars p ->
  exists t, lin_extra s v = Ok (l_write s t) /\ lwrote (lin_block (start p v) (domsize p v)) t.
Proof.
  intros W U H R. unfold lin_extra. rewrite (ready_domain p s v H R). cbn [bind].
  unfold lin_block. destruct (Z.ltb_spec 2 (domsize p v)) as [D|D].
  2: { exists []. split; [|apply wrote_nil]. unfold l_write. rewrite app_nil_r. destruct s; reflexivity. }
  rewrite (ready_index p s v H R). cbn [bind]. destruct (start_pos p v W R) as (S1 & S2).
  unfold width in S2. destruct (Z.eqb_spec (domsize p v) 2); [lia|].
  set (x := start p v) in *. set (d := domsize p v) in *.
  rewrite (i32_ok (- x)) by (unfold int_max in *; lia). cbn [bind]. rewrite (i32_ok (x + d)) by (unfold int_max in *; lia). cbn [bind].
  rewrite (i32_ok (x + d + (d - 2))) by (unfold int_max in *; lia). cbn [bind]. rewrite !l_write_write.
  eexists. split; [reflexivity|].
  rewrite <- !app_assoc. rewrite (app_assoc _ (txt " 0")). rewrite (app_assoc _ [LF]).
  change (map (fun j => x + j) (loop 0 d) :: ?r) with ([map (fun j => x + j) (loop 0 d)] ++ r).
  apply wrote_app.
  { pose proof (put_wrote (map (fun j => x + j) (loop 0 d)) [SP] (or_intror eq_refl)) as P. rewrite map_map in P. exact P. }
  change ([[- (x + d); x]; [x + d; - x]] ++ ?r) with ([[- (x + d); x]] ++ ([[x + d; - x]] ++ r)).
  pose proof (put_wrote1 [- (x + d); x]) as P1. cbn [map List.concat] in P1. rewrite app_nil_r, <- !app_assoc in P1.
  pose proof (put_wrote1 [x + d; - x]) as P2. cbn [map List.concat] in P2. rewrite app_nil_r, <- !app_assoc in P2.
  match goal with |- lwrote (?c1 ++ ?c2 ++ ?r) (?a1 ++ ?a2 ++ ?a3 ++ ?a4 ++ ?b1 ++ ?b2 ++ ?b3 ++ ?b4 ++ ?t) =>
    replace (a1 ++ a2 ++ a3 ++ a4 ++ b1 ++ b2 ++ b3 ++ b4 ++ t)%list
      with ((a1 ++ a2 ++ a3 ++ a4) ++ (b1 ++ b2 ++ b3 ++ b4) ++ t)%list by (rewrite <- !app_assoc; reflexivity) end.
  apply wrote_app; [exact P1|]. apply wrote_app; [exact P2|].
  apply wrote_app.
  - apply (wrote_concat lin_row (fun j => [[- (x + d + 1 + j); x + d + j; x + 1 + j]; [x + d + 1 + j; - (x + d + j)]; [x + d + 1 + j; - (x + 1 + j)]])).
    intros j _.
    pose proof (put_wrote1 [- (x + d + 1 + j); x + d + j; x + 1 + j]) as Q1. cbn [map List.concat] in Q1. rewrite app_nil_r, <- !app_assoc in Q1.
    pose proof (put_wrote1 [x + d + 1 + j; - (x + d + j)]) as Q2. cbn [map List.concat] in Q2. rewrite app_nil_r, <- !app_assoc in Q2.
    pose proof (put_wrote1 [x + d + 1 + j; - (x + 1 + j)]) as Q3. cbn [map List.concat] in Q3. rewrite app_nil_r, <- !app_assoc in Q3.
    pose proof (wrote_app lin_row _ _ _ _ Q1 (wrote_app lin_row _ _ _ _ Q2 Q3)) as Q. rewrite <- !app_assoc in Q. exact Q.
  - replace (map (fun j => [- (x + d + j); - (x + 1 + j)]) (loop 0 (d - 1)))
      with (List.concat (map (fun j => [[- (x + d + j); - (x + 1 + j)]]) (loop 0 (d - 1)))).
    + apply (wrote_concat lin_row (fun j => [[- (x + d + j); - (x + 1 + j)]])). intros j _.
      pose proof (put_wrote1 [- (x + d + j); - (x + 1 + j)]) as Q1. cbn [map List.concat] in Q1. rewrite app_nil_r, <- !app_assoc in Q1. exact Q1.
    + induction (loop 0 (d - 1)) as [|q qs IH]; auto. simpl. rewrite IH. reflexivity.
Qed.

(** The blocks of the variables [v, v+1, ..., n]. *)
Lemma blocks_split p : forall k v, 1 <= v -> v + Z.of_nat k = nvars p + 1 ->
  forall r, lin_blocks (start p v) (skipn (Z.to_nat (v - 1)) (doms p)) = r ->
  match k with O => r = [] | S _ => r = lin_block (start p v) (domsize p v) ++ lin_blocks (start p (v + 1)) (skipn (Z.to_nat v) (doms p)) end.
Proof.
  intros k v Hv Hk r <-. destruct k as [|k].
  - rewrite skipn_all2; [reflexivity|]. unfold nvars in Hk. lia.
  - destruct (doms_nth p v ltac:(lia)) as (i & E & H). replace (Z.to_nat (v - 1)) with i by lia. replace (Z.to_nat v) with (S i) by lia.
    rewrite start_next by lia.
    assert (SP : skipn i (doms p) = domsize p v :: skipn (S i) (doms p)).
    { clear -H. revert i H. generalize (doms p) (domsize p v).
      induction l as [|x l IH]; intros z i H; [destruct i; discriminate|]. destruct i as [|i]; simpl in *; [injection H as ->; auto|].
      apply IH in H. exact H. }
    rewrite SP. reflexivity.
Qed.

Lemma extras_wrote p : wf p -> lin_used p <= int_max -> forall k v s, 1 <= v -> v + Z.of_nat k = nvars p + 1 -> ready p s ->
  exists t, foldM lin_extra (loop v (nvars p + 1)) s = Ok (l_write s t) /\
            lwrote (lin_blocks (start p v) (skipn (Z.to_nat (v - 1)) (doms p))) t.
Proof.
  intros W U. induction k as [|k IH]; intros v s Hv Hk H.
  - rewrite (blocks_split p 0 v Hv Hk _ eq_refl). rewrite loop_empty by lia. exists []. split; [|apply wrote_nil].
    cbn. unfold l_write. rewrite app_nil_r. destruct s; reflexivity.
  - rewrite (blocks_split p (S k) v Hv Hk _ eq_refl). rewrite loop_cons by lia. cbn [foldM].
    destruct (extra_wrote p s v W U H ltac:(lia)) as (t & E & Wt). rewrite E. cbn [bind].
    destruct (IH (v + 1) (l_write s t) ltac:(lia) ltac:(lia) (ready_write p s t H)) as (t' & E' & Wt').
    exists (t ++ t')%list. rewrite E', l_write_write. split; auto. apply wrote_app; auto.
    replace (Z.to_nat (v + 1 - 1)) with (Z.to_nat v) in Wt' by lia. auto.
Qed.

(** ** The first clause line *)

Lemma in_zsum l d : (forall x, In x l -> 0 <= x) -> In d l -> d <= zsum l.
Proof.
  induction l as [|y l IH]; intros N H; [destruct H|]. unfold zsum in *. cbn [fold_right].
  pose proof (zsum_nonneg l (fun z Hz => N z (or_intror Hz))) as P. unfold zsum in P.
  destruct H as [->|H]; [lia|]. specialize (IH (fun z Hz => N z (or_intror Hz)) H). specialize (N y (or_introl eq_refl)). lia.
Qed.

Lemma index_filled p s : wf p -> lin_used p <= int_max -> 2 * zsum (doms p) <= int_max ->
  l_size s = Some (nvars p + 1) -> l_num_var s = nvars p ->
  l_domain s 0 = 2 -> (forall v, 1 <= v <= nvars p -> l_domain s v = domsize p v) -> l_index s 1 = Some 1 -> l_done s = true ->
  forall k, 1 + Z.of_nat k <= nvars p ->
  exists s', foldM lin_index_step (loop 2 (1 + Z.of_nat k + 1)) s = Ok s' /\
    l_out s' = l_out s /\ l_regs s' = l_regs s /\
    l_size s' = Some (nvars p + 1) /\ l_num_var s' = nvars p /\ l_domain s' = l_domain s /\ l_done s' = true /\
    forall v, 1 <= v <= 1 + Z.of_nat k -> l_index s' v = Some (start p v).
Proof.
  intros W U U2 Hs Hn H0 Hd H1 Dn. induction k as [|k IH]; intro Hk.
  - exists s. rewrite loop_empty by lia. cbn. repeat split; auto. intros v R. assert (v = 1) by lia. subst v. exact H1.
  - destruct IH as (s' & E & O & G & Z1 & Z2 & Z3 & Z4 & Z5); [lia|].
    replace (1 + Z.of_nat (S k) + 1) with (1 + Z.of_nat k + 1 + 1) by lia. rewrite loop_snoc by lia. rewrite foldM_app, E. cbn [bind foldM].
    set (i := 1 + Z.of_nat k) in *. assert (Hi : 1 <= i < nvars p) by lia.
    destruct (start_pos p i W ltac:(lia)) as (S1 & S2). destruct (start_pos p (i + 1) W ltac:(lia)) as (S3 & S4).
    pose proof (start_next p i ltac:(lia)) as SN.
    assert (D2 : forall v, 1 <= v <= nvars p -> 2 <= domsize p v <= zsum (doms p)).
    { intros v R. pose proof W as (W1 & _). destruct (doms_nth p v R) as (q & _ & Hq). apply nth_error_In in Hq. split; [apply W1; auto|].
      apply in_zsum; auto. intros z Hz. specialize (W1 z Hz). lia. }
    pose proof (D2 i ltac:(lia)) as Di. pose proof (D2 (i + 1) ltac:(lia)) as Di'.
    assert (WP : 1 <= width (domsize p (i + 1))) by (apply width_pos; lia).
    assert (IN : forall q, 0 <= q <= nvars p -> l_in s' q = Ok tt).
    { intros q R. unfold l_in. rewrite Z1. destruct (Z.leb_spec 0 q); [|lia]. destruct (Z.ltb_spec q (nvars p + 1)); [auto|lia]. }
    unfold lin_index_step. replace (i + 1 - 1) with i by lia. unfold get_domain, get_index. rewrite (IN i) by lia. cbn [bind].
    rewrite (Z5 i) by lia. cbn [bind get]. rewrite Z3, (Hd i) by lia.
    assert (EY : (if domsize p i =? 2 then i32 (start p i + 1) else let* a := i32 (2 * domsize p i) in let* a := i32 (a - 1) in i32 (a + start p i))
                 = Ok (start p (i + 1))).
    { unfold width in SN at 1. destruct (domsize p i =? 2).
      - rewrite i32_ok by (unfold int_max in *; lia). f_equal. lia.
      - rewrite i32_ok by (unfold int_max in *; lia). cbn [bind]. rewrite i32_ok by (unfold int_max in *; lia). cbn [bind]. rewrite i32_ok by (unfold int_max in *; lia). f_equal. lia. }
    rewrite EY. cbn [bind]. rewrite (IN (i + 1)) by lia. cbn [bind].
    eexists. split; [reflexivity|]. cbn [l_out l_regs l_size l_num_var l_domain l_done l_index].
    do 6 (split; [auto; fail|]). intros v R. unfold fset.
    destruct (Z.eqb_spec v (i + 1)) as [->|N]; auto. apply Z5. lia.
Qed.

Definition lin_header (nv nc : Z) : text := (txt "p cnf " ++ put nv ++ num nc ++ [LF])%list.

Lemma first_wrote p s : wf p -> 1 <= nvars p -> lin_used p <= int_max -> 2 * zsum (doms p) <= int_max ->
  l_size s = Some (nvars p + 1) -> l_num_var s = nvars p -> l_count s = nvars p ->
  l_domain s 0 = 2 -> (forall v, 1 <= v <= nvars p -> l_domain s v = domsize p v) -> l_done s = false ->
  0 <= l_new_clause s + l_num_clause s <= int_max -> 0 <= l_new_var s <= int_max ->
  exists s' t, lin_first s = Ok s' /\ ready p s' /\
    l_out s' = (l_out s ++ lin_header (l_new_var s) (l_new_clause s + l_num_clause s) ++ t)%list /\
    lwrote (lin_blocks 1 (doms p)) t /\ l_regs s' = l_regs s.
Proof.
  intros W N1 U U2 Hs Hn Hc H0 Hd Dn B1 B2. unfold lin_first. rewrite Dn. rewrite (i32_ok (l_new_clause s + l_num_clause s)) by (unfold int_max in *; lia). cbn [bind].
  rewrite (i32_ok (l_num_var s - l_count s)) by (rewrite Hn, Hc; unfold int_max; lia). cbn [bind].
  replace (l_new_var s + (l_num_var s - l_count s)) with (l_new_var s) by lia. rewrite (i32_ok (l_new_var s)) by (unfold int_max in *; lia). cbn [bind].
  assert (IN : l_in s 1 = Ok tt).
  { unfold l_in. rewrite Hs. destruct (Z.ltb_spec 1 (nvars p + 1)); [reflexivity|lia]. }
  rewrite IN. cbn [bind]. set (s1 := mkLin _ _ _ _ _ _ _ _ _ _ _).
  destruct (index_filled p s1 W U U2) with (k := Z.to_nat (nvars p - 1)) as (s2 & E & O & G & Z1 & Z2 & Z3 & Z4 & Z5); auto; [lia|].
  replace (1 + Z.of_nat (Z.to_nat (nvars p - 1)) + 1) with (nvars p + 1) in * by lia.
  replace (l_num_var s1) with (nvars p) by (symmetry; exact Hn). rewrite E. cbn [bind].
  assert (R2 : ready p s2).
  { split; [auto|]. split; [auto|]. split; [auto|]. rewrite Z3. split; [exact H0|]. intros v R. split; [exact (Hd v R)|]. apply Z5. lia. }
  rewrite Z2. rewrite loop_cons by lia. cbn [foldM].
  assert (E0 : lin_extra s2 0 = Ok s2).
  { unfold lin_extra, get_domain, l_in. rewrite Z1. destruct (Z.ltb_spec 0 (nvars p + 1)); [|lia].
    cbn [bind andb Z.leb Z.compare]. rewrite Z3. unfold s1. cbn [l_domain]. rewrite H0. reflexivity. }
  rewrite E0. cbn [bind].
  destruct (extras_wrote p W U (Z.to_nat (nvars p)) 1 s2 ltac:(lia) ltac:(lia) R2) as (t & E' & Wt).
  change (0 + 1) with 1. rewrite E'. exists (l_write s2 t), t. split; auto. split; [apply ready_write; auto|].
  split; [|split].
  - unfold l_write. cbn [l_out]. rewrite O. unfold s1. cbn [l_out]. unfold lin_header. rewrite <- !app_assoc. reflexivity.
  - rewrite start_one in Wt. exact Wt.
  - cbn. rewrite G. reflexivity.
Qed.

(** ** Clause lines *)

Lemma word_wrote p s l : wf p -> lin_used p <= int_max -> ready p s -> wf_lit p l -> int_ok (lvar l) -> lvar l <> 0 -> int_ok (lval l) ->
  (domsize p (lvar l) = 2 -> leq l = true) ->
  exists s', lin_word s (lit_text l) = Ok s' /\ ready p s' /\ l_out s' = (l_out s ++ put (lin_lit p l))%list /\ g_ch (l_regs s') <> None.
Proof.
  intros W U H (Rv & Rd) I1 I2 I3 TV. pose proof (start_pos p (lvar l) W Rv) as (S1 & S2).
  pose proof (ready_domain p s (lvar l) H Rv) as GD. pose proof (ready_index p s (lvar l) H Rv) as GI.
  assert (D2 : 2 <= domsize p (lvar l)).
  { pose proof W as (W1 & _). destruct (doms_nth p (lvar l) Rv) as (i & _ & Hn). apply W1. eapply nth_error_In; eauto. }
  assert (WD : domsize p (lvar l) = 2 \/ (2 < domsize p (lvar l) /\ width (domsize p (lvar l)) = 2 * domsize p (lvar l) - 1)).
  { unfold width. destruct (Z.eqb_spec (domsize p (lvar l)) 2); [auto|right; lia]. }
  destruct l as [v d e]. cbn [lvar lval leq] in *. unfold lit_text, lin_word, lin_lit. cbn [lvar lval leq].
  assert (NZ : (v =? 0) = false) by (apply Z.eqb_neq; auto).
  destruct e.
  - change (num v ++ txt "=" ++ num d)%list with (num v ++ "=" :: num d)%list in *. 
    assert (ES := scan_eq v d (l_regs s) I1 I3). change (num v ++ txt "=" ++ num d)%list with (num v ++ "=" :: num d)%list in ES.
    rewrite ES. cbn [bind get g_ch]. change (Ascii.eqb "=" "!") with false. cbn iota. cbn [bind get g_var g_val g_ch]. rewrite NZ.
    change (get_domain (l_set_regs s ?g) v) with (get_domain s v). change (get_index (l_set_regs s ?g) v) with (get_index s v).
    rewrite GD, GI. cbn [bind]. destruct (Z.ltb_spec 2 (domsize p v)) as [D|D].
    + rewrite i32_ok by (unfold int_max in *; lia). cbn [bind]. change (Ascii.eqb "=" "!") with false. cbn iota.
      eexists. split; [reflexivity|]. split; [exact H|]. split; [reflexivity|]. cbn. discriminate.
    + destruct (d =? 1).
      * eexists. split; [reflexivity|]. split; [exact H|]. split; [reflexivity|]. cbn. discriminate.
      * rewrite i32_ok by (unfold width in S2; destruct (domsize p v =? 2); unfold int_max in *; lia). cbn [bind].
        eexists. split; [reflexivity|]. split; [exact H|]. split; [reflexivity|]. cbn. discriminate.
  - assert (D3 : 2 < domsize p v). { destruct WD as [E|(E & _)]; auto. discriminate (TV E). }
    assert (ES := scan_ne v d (l_regs s) I1). change (num v ++ txt "!=" ++ num d)%list with (num v ++ "!" :: "=" :: num d)%list in ES.
    assert (ER := rescan_ne v d (mkRegs (Some v) (g_val (l_regs s)) (Some "!"%char)) I1 I3). change (num v ++ txt "!=" ++ num d)%list with (num v ++ "!" :: "=" :: num d)%list in ER.
    change (num v ++ txt "!=" ++ num d)%list with (num v ++ "!" :: "=" :: num d)%list.
    rewrite ES. cbn [bind get g_ch]. change (Ascii.eqb "!" "!") with true. cbn iota. rewrite ER. cbn [bind get g_var g_val g_ch]. rewrite NZ.
    change (get_domain (l_set_regs s ?g) v) with (get_domain s v). change (get_index (l_set_regs s ?g) v) with (get_index s v).
    rewrite GD, GI. cbn [bind]. destruct (Z.ltb_spec 2 (domsize p v)); [|lia]. destruct WD as [E|(_ & WD)]; [lia|].
    rewrite i32_ok by (unfold int_max in *; lia). cbn [bind]. change (Ascii.eqb "!" "!") with true. cbn iota.
    eexists. split; [reflexivity|]. split; [exact H|]. split; [|cbn; discriminate].
    cbn [l_write l_set_regs l_out]. unfold put. rewrite (num_opp (start p v + d)) by lia. reflexivity.
Qed.

Lemma words_wrote p : wf p -> lin_used p <= int_max -> forall c s, ready p s -> (c = [] -> g_ch (l_regs s) <> None) ->
  (forall l, In l c -> wf_lit p l /\ int_ok (lvar l) /\ lvar l <> 0 /\ int_ok (lval l) /\ (domsize p (lvar l) = 2 -> leq l = true)) ->
  exists s', foldM lin_word (map lit_text c ++ [txt "0"]) s = Ok s' /\ ready p s' /\
    l_out s' = (l_out s ++ List.concat (map put (map (lin_lit p) c)))%list.
Proof.
  intros W U. induction c as [|l c IH]; intros s H G HI.
  - specialize (G eq_refl). cbn [map app foldM]. unfold lin_word. destruct s as [g a b c d e f h i j o]. destruct g as [gv gd gch]. cbn [l_regs g_ch] in *.
    destruct gch as [ch|]; [|congruence]. rewrite scan_zero. cbn [bind get g_ch].
    assert (EG : (if Ascii.eqb ch "!" then sscanf fmt_ne (txt "0") (mkRegs (Some 0) gd (Some ch)) else Ok (mkRegs (Some 0) gd (Some ch)))
                 = Ok (mkRegs (Some 0) gd (Some ch))).
    { destruct (Ascii.eqb ch "!"); [apply rescan_zero|reflexivity]. }
    rewrite EG. cbn [bind get g_var Z.eqb].
    eexists. split; [reflexivity|]. split; [exact H|]. cbn. rewrite app_nil_r. reflexivity.
  - destruct (HI l (or_introl eq_refl)) as (H1 & H2 & H3 & H4 & H5). destruct (word_wrote p s l W U H H1 H2 H3 H4 H5) as (s1 & E & R1 & O1 & G1).
    destruct (IH s1 R1 (fun _ => G1)) as (s2 & E2 & R2 & O2). { intros; apply HI; right; auto. }
    exists s2. cbn [map app foldM]. rewrite E. cbn [bind]. split; auto. split; auto.
    rewrite O2, O1. cbn [List.concat]. rewrite <- !app_assoc. reflexivity.
Qed.

Lemma lin_comment s l : lin_line s ("c" :: l) = Ok s.
Proof. unfold lin_line. cbn [cstr]. change (Ascii.eqb "c" NUL) with false. reflexivity. Qed.

Lemma lin_clause_line s c l : clause_line c l -> lin_line s l = lin_clause s l.
Proof.
  intro W. destruct (clause_line_chars c l W) as (N & a & r & El & C1 & C2 & C3).
  unfold lin_line. rewrite cstr_id by auto. rewrite El. clear -C1 C2 C3.
  destruct a as [[] [] [] [] [] [] [] []]; try reflexivity; congruence.
Qed.

Lemma clause_wrote p s c l : wf p -> lin_used p <= int_max -> ready p s -> clause_line c l -> c <> [] ->
  (forall l, In l c -> wf_lit p l /\ int_ok (lvar l) /\ lvar l <> 0 /\ int_ok (lval l) /\ (domsize p (lvar l) = 2 -> leq l = true)) ->
  exists s' t, lin_line s l = Ok s' /\ ready p s' /\ l_out s' = (l_out s ++ t)%list /\ lwrote [map (lin_lit p) c] t.
Proof.
  intros W U H Wc N HI. rewrite (lin_clause_line s c l Wc). unfold lin_clause. 
  assert (LF1 : lin_first s = Ok s). { unfold lin_first. destruct H as (_ & -> & _). reflexivity. }
  rewrite LF1. cbn [bind]. rewrite line_words_eq, Wc.
  destruct (words_wrote p W U c s H (fun E => False_ind _ (N E)) HI) as (s' & E & R & O). rewrite E. cbn [bind].
  eexists. exists (List.concat (map put (map (lin_lit p) c)) ++ txt "0" ++ [LF])%list. split; [reflexivity|].
  split; [exact R|]. split; [cbn; rewrite O, <- !app_assoc; reflexivity|]. apply put_wrote1.
Qed.

Lemma clauses_wrote p : wf p -> lin_used p <= int_max -> forall C cs, Forall2 clause_line C cs -> forall s, ready p s ->
  (forall c, In c C -> c <> []) ->
  (forall c l, In c C -> In l c -> wf_lit p l /\ int_ok (lvar l) /\ lvar l <> 0 /\ int_ok (lval l) /\ (domsize p (lvar l) = 2 -> leq l = true)) ->
  exists s' t, foldM lin_line cs s = Ok s' /\ l_out s' = (l_out s ++ t)%list /\ lwrote (map (map (lin_lit p)) C) t.
Proof.
  intros W U C cs H. induction H as [|c l C cs H HH IH]; intros s R HN HI.
  - exists s, []. split; auto. split; [rewrite app_nil_r; auto|apply wrote_nil].
  - destruct (clause_wrote p s c l W U R H) as (s1 & t & E & R1 & O1 & Wt); [apply HN; left; auto|intros x Hx; apply (HI c x); [left; auto|auto]|].
    destruct (IH s1 R1) as (s2 & t' & E' & O & Wt'). { intros; apply HN; right; auto. } { intros; eapply HI; [right|]; eauto. }
    exists s2, (t ++ t')%list. cbn [foldM]. rewrite E. cbn [bind]. split; auto. split.
    + rewrite O, O1. rewrite app_assoc. auto.
    + apply (wrote_app lin_row [map (lin_lit p) c] t _ t'); auto.
Qed.

(** ** Domain lines *)

Lemma lin_domains : forall sizes v ds s n, domain_lines v sizes ds -> 1 <= v -> l_size s = Some n ->
  v + Z.of_nat (length sizes) <= n -> n <= int_max + 1 -> (forall d, In d sizes -> 2 <= d) ->
  0 <= l_new_clause s -> 0 <= l_new_var s -> 2 * zsum sizes <= int_max ->
  l_new_clause s + zsum (map (fun d => 4 * (d - 1)) sizes) <= int_max -> l_new_var s + zsum (map (fun d => 2 * d - 1) sizes) <= int_max ->
  exists g D, foldM lin_line ds s =
    Ok (mkLin g (l_size s) D (l_index s) (l_num_clause s) (l_num_var s) (l_new_clause s + zsum (map (fun d => 4 * (d - 1)) sizes))
          (l_new_var s + zsum (map (fun d => 2 * d - 1) sizes)) (l_done s) (l_count s + Z.of_nat (length sizes)) (l_out s)) /\
    (forall i, i < v -> D i = l_domain s i) /\
    (forall i d, nth_error sizes i = Some d -> D (v + Z.of_nat i) = d).
Proof.
  induction sizes as [|d sizes IH]; intros v ds s n H Hv Hsz Hn Hm Hs Hc Hq B2 Bc Bv.
  - destruct ds; [|destruct H]. exists (l_regs s), (l_domain s). simpl. rewrite !Z.add_0_r. split; [destruct s; reflexivity|].
    split; auto. intros i d Hi. destruct i; discriminate.
  - destruct ds as [|l ds]; [destruct H|]. destruct H as (H1 & H2). simpl length in Hn. cbn [map] in *.
    unfold zsum in B2, Bc, Bv. cbn [fold_right] in B2, Bc, Bv. fold (zsum sizes) in B2.
    fold (zsum (map (fun d => 4 * (d - 1)) sizes)) in Bc. fold (zsum (map (fun d => 2 * d - 1) sizes)) in Bv.
    pose proof (Hs d (or_introl eq_refl)) as Hd1.
    assert (S0 : 0 <= zsum sizes) by (apply zsum_nonneg; intros x Hx; specialize (Hs x (or_intror Hx)); lia).
    assert (S1 : 0 <= zsum (map (fun d => 4 * (d - 1)) sizes)).
    { apply zsum_nonneg. intros x Hx. apply in_map_iff in Hx. destruct Hx as (y & <- & Hy). specialize (Hs y (or_intror Hy)). lia. }
    assert (S2 : 0 <= zsum (map (fun d => 2 * d - 1) sizes)).
    { apply zsum_nonneg. intros x Hx. apply in_map_iff in Hx. destruct Hx as (y & <- & Hy). specialize (Hs y (or_intror Hy)). lia. }
    destruct (scan_domain_line (l_regs s) v d l H1) as (N & (r & El) & E); [unfold int_ok; lia|unfold int_ok, int_max in *; lia|].
    set (s1 := mkLin (mkRegs (Some v) (Some d) (g_ch (l_regs s))) (l_size s) (fset (l_domain s) v d) (l_index s) (l_num_clause s) (l_num_var s)
                 (l_new_clause s + 4 * (d - 1)) (l_new_var s + (2 * d - 1)) (l_done s) (l_count s + 1) (l_out s)).
    assert (ES : lin_line s l = Ok s1).
    { unfold lin_line. rewrite cstr_id by auto. rewrite El at 1. cbn beta iota. unfold lin_domain. rewrite E. cbn [bind get g_var g_val].
      rewrite (i32_ok (2 * d)) by (unfold int_max in *; lia). cbn [bind]. rewrite (i32_ok (2 * d - 1)) by (unfold int_max in *; lia). cbn [bind].
      rewrite (i32_ok (l_new_var s + (2 * d - 1))) by (unfold int_max in *; lia). cbn [bind]. rewrite (i32_ok (d - 2)) by (unfold int_max in *; lia). cbn [bind].
      rewrite (i32_ok (4 * (d - 2))) by (unfold int_max in *; lia). cbn [bind]. rewrite (i32_ok (4 * (d - 2) + 3)) by (unfold int_max in *; lia). cbn [bind].
      rewrite (i32_ok (4 * (d - 2) + 3 + 1)) by (unfold int_max in *; lia). cbn [bind]. rewrite (i32_ok (l_new_clause s + (4 * (d - 2) + 3 + 1))) by (unfold int_max in *; lia). cbn [bind].
      unfold l_in. rewrite Hsz. destruct (Z.leb_spec 0 v); [|lia]. destruct (Z.ltb_spec v n); [|lia]. cbn [andb bind].
      unfold s1. rewrite Hsz. do 2 f_equal. lia. }
    cbn [foldM]. rewrite ES. cbn [bind].
    destruct (IH (v + 1) ds s1 n H2) as (g & D & EG & L1 & L2); try (unfold s1; cbn [l_new_clause l_new_var]; lia); [exact Hsz|intros; apply Hs; right; auto|].
    exists g, D. rewrite EG. unfold s1 in *. cbn [l_size l_index l_new_clause l_new_var l_done l_out l_num_clause l_num_var l_count l_domain] in *.
    unfold zsum. cbn [fold_right]. fold (zsum (map (fun d => 4 * (d - 1)) sizes)). fold (zsum (map (fun d => 2 * d - 1) sizes)).
    split; [|split].
    + f_equal. f_equal; [lia|lia|]. simpl length. lia.
    + intros i Hi. rewrite L1 by lia. unfold fset. destruct (Z.eqb_spec i v); [lia|auto].
    + intros i x Hi. destruct i as [|i].
      * simpl in Hi. injection Hi as <-. rewrite Z.add_0_r. rewrite L1 by lia. unfold fset. rewrite Z.eqb_refl. reflexivity.
      * simpl in Hi. apply L2 in Hi. rewrite <- Hi. f_equal. lia.
Qed.

(** ** The whole file *)

Definition lin_nv (p : problem) : Z := zsum (map (fun d => 2 * d - 1) (doms p)).
Definition lin_nc (p : problem) : Z := zsum (map (fun d => 4 * (d - 1)) (doms p)) + Z.of_nat (length (clauses p)).

Lemma zsum_le (f g : Z -> Z) l : (forall x, In x l -> f x <= g x) -> zsum (map f l) <= zsum (map g l).
Proof.
  induction l as [|x l IH]; intro H; [reflexivity|]. unfold zsum in *. cbn [map fold_right].
  pose proof (H x (or_introl eq_refl)). specialize (IH (fun y Hy => H y (or_intror Hy))). lia.
Qed.

Lemma zsum_double l : zsum (map (fun d => 2 * d) l) = 2 * zsum l.
Proof. induction l as [|x l IH]; [reflexivity|]. unfold zsum in *. cbn [map fold_right]. rewrite IH. lia. Qed.

Theorem linear_written p t : wf p -> clauses p <> [] -> two_valued_positive p ->
  2 * zsum (doms p) <= int_max -> lin_nc p <= int_max ->
  documented_as (txt "cnf") p t -> lines_below 3000 t ->
  exists t', linear_encode t = Ok t' /\ dimacs (lin_nv p) (lin_nc p) (lin_cnf p) t' /\ starts "p" t'.
Proof.
  intros W NC TV F1 F2 (ls & hd & ds & cs & HL & FL & (Hs & Hh) & HD & HC) LB. pose proof W as (W1 & W2).
  assert (UV : lin_used p <= lin_nv p <= 2 * zsum (doms p)).
  { unfold lin_used, lin_nv. rewrite <- zsum_double. split; apply zsum_le; intros x Hx; specialize (W1 x Hx); unfold width; [destruct (x =? 2) eqn:E|]; lia. }
  assert (S1 : 0 <= zsum (map (fun d => 4 * (d - 1)) (doms p))).
  { apply zsum_nonneg. intros x Hx. apply in_map_iff in Hx. destruct Hx as (y & <- & Hy). specialize (W1 y Hy). lia. }
  assert (S2 : 0 <= lin_nv p).
  { apply zsum_nonneg. intros x Hx. apply in_map_iff in Hx. destruct Hx as (y & <- & Hy). specialize (W1 y Hy). lia. }
  assert (NV : nvars p <= zsum (doms p)).
  { unfold nvars. clear -W1. induction (doms p) as [|x l IH]; [reflexivity|]. unfold zsum in *. cbn [fold_right]. simpl length.
    pose proof (W1 x (or_introl eq_refl)). specialize (IH (fun y Hy => W1 y (or_intror Hy))). lia. }
  assert (DI : forall d, In d (doms p) -> d <= int_max).
  { intros d Hd. enough (d <= zsum (doms p)) by (unfold nvars in NV; lia). apply in_zsum; auto. intros z Hz. specialize (W1 z Hz). lia. }
  assert (N1 : 1 <= nvars p).
  { destruct (clauses p) as [|c C] eqn:EC; [congruence|]. destruct (W2 c) as (Nn & Wl); [left; auto|].
    destruct c as [|l c]; [congruence|]. destruct (Wl l (or_introl eq_refl)) as (R & _). lia. }
  unfold linear_encode. rewrite (getlines_has t ls HL (LB ls HL)). rewrite (fold_comments lin_line lin_comment), FL.
  destruct (scan_header_line no_regs _ _ hd Hs Hh) as (N & (r & El) & E); [unfold int_ok, nvars in *; lia|unfold lin_nc in F2; unfold int_ok; lia|].
  set (s0 := mkLin (mkRegs (Some (nvars p)) (Some (Z.of_nat (length (clauses p)))) None) (Some (nvars p + 1)) (fun _ => 2) (fun _ => None)
               (Z.of_nat (length (clauses p))) (nvars p) 0 0 false 0 []).
  assert (EH : lin_line lin_start hd = Ok s0).
  { unfold lin_line. rewrite cstr_id by auto. rewrite El at 1. cbn beta iota. unfold lin_problem.
    cbn [l_regs lin_start]. rewrite E. cbn [bind get g_val g_var]. rewrite i32_ok by (unfold int_max in *; lia). cbn [bind].
    destruct (Z.ltb_spec (nvars p + 1) 0); [lia|]. reflexivity. }
  cbn [foldM]. rewrite EH. cbn [bind]. rewrite foldM_app.
  destruct (lin_domains (doms p) 1 ds s0 (nvars p + 1) HD) as (g & D & EG & L1 & L2); unfold s0; cbn [l_size l_new_clause l_new_var]; auto; try lia.
  { unfold nvars. lia. } { unfold lin_nc in F2. lia. } { unfold lin_nv in UV. lia. }
  unfold s0 in EG. rewrite EG. cbn [bind l_size l_index l_num_clause l_num_var l_new_clause l_new_var l_done l_count l_out].
  unfold s0. cbn [l_size l_index l_num_clause l_num_var l_new_clause l_new_var l_done l_count l_out]. rewrite !Z.add_0_l.
  set (s1 := mkLin _ _ _ _ _ _ _ _ _ _ _).
  assert (DD : forall v, 1 <= v <= nvars p -> D v = domsize p v).
  { intros v R. destruct (doms_nth p v R) as (i & Ev & Hi). apply L2 in Hi. rewrite <- Ev in Hi. auto. }
  destruct (first_wrote p s1 W N1) as (s2 & t2 & E2 & R2 & O2 & Wt2 & G2); auto; unfold s1; cbn [l_size l_index l_num_clause l_num_var l_new_clause l_new_var l_done l_count l_out l_domain]; auto; try lia.
  { rewrite L1 by lia. reflexivity. }  { unfold lin_nc in F2. lia. } { unfold lin_nv in UV, S2. lia. }
  assert (EF : foldM lin_line cs s1 = foldM lin_line cs s2).
  { destruct HC as [|c l C cs Hcl HC]; [congruence|]. cbn [foldM]. rewrite !(lin_clause_line _ c l Hcl). unfold lin_clause. 
    assert (LF2 : lin_first s2 = Ok s2). { unfold lin_first. destruct R2 as (_ & -> & _). reflexivity. }
    fold s1 in E2. rewrite LF2, E2. reflexivity. }
  fold s1. rewrite EF.
  destruct (clauses_wrote p W ltac:(lia) _ _ HC s2 R2) as (s3 & t3 & E3 & O3 & Wt3).
  { intros c Hc. destruct (W2 c Hc) as (Nn & _). auto. }
  { intros c l Hc Hl. destruct (W2 c Hc) as (_ & Wl). specialize (Wl l Hl).
    destruct (lit_ints p l W ltac:(lia) DI Wl) as (I1 & I2 & I3). split; [exact Wl|]. split; [exact I1|]. split; [exact I2|]. split; [exact I3|]. exact (TV c l Hc Hl). }
  rewrite E3. cbn [bind]. eexists. split; [reflexivity|]. rewrite O3, O2. unfold s1. cbn [l_out l_new_var l_new_clause l_num_clause app].
  fold (lin_nv p). fold (lin_nc p). rewrite <- app_assoc.
  pose proof (wrote_app _ _ _ _ _ Wt2 Wt3) as (rows & Er & Nr & Fr). unfold lin_header.
  split; [|eexists; reflexivity].
  exists (txt "p cnf " ++ put (lin_nv p) ++ num (lin_nc p))%list, rows. split; [|split].
  - split.
    + intros l [<-|Hl]; [|auto]. apply no_lf_app; [simpl; intuition discriminate|]. unfold put. apply no_lf_app; [|apply num_no_lf].
      apply no_lf_app; [apply num_no_lf|simpl; intuition discriminate].
    + left. rewrite unlines_cons, <- Er, <- !app_assoc. reflexivity.
  - change (txt "p cnf " ++ put ?a ++ num ?b)%list with (txt "p" ++ SP :: txt "cnf" ++ SP :: put a ++ num b)%list.
    rewrite words_word by (apply txt_solid; [reflexivity|discriminate]).
    rewrite words_word by (apply txt_solid; [reflexivity|discriminate]). unfold put. rewrite <- app_assoc. simpl app.
    rewrite words_word by apply num_solid. rewrite words_one by apply num_solid. reflexivity.
  - exact Fr.
Qed.

Lemma lin_count p : wf p ->
  lin_nc p = Z.of_nat (length (lin_cnf p)) + 4 * zsum (map two (doms p)) /\ lin_nv p = lin_used p + 2 * zsum (map two (doms p)).
Proof.
  intros (W1 & _). unfold lin_nc, lin_nv, lin_used, lin_cnf. 
  assert (E : length (map (map (lin_lit p)) (clauses p)) = length (clauses p)) by apply map_length.
  rewrite app_length, E, Nat2Z.inj_add, blocks_count, used_count by auto. lia.
Qed.
