(** * GenBenFin *)

From Coq Require Import Ascii String.
From Verif Require Import Spec Outcome State Base ModelBuild TextSpec ModelText ModelRead ModelCli EncodeSpec ModelEncode ModelGen
  Text Read Encode Gen.
#[local] Open Scope char_scope.
#[local] Open Scope Z_scope.

Definition at_ (l : list Z) (v : Z) : Z := nth (Z.to_nat v) l 0.

Lemma read_at_z (a : list Z) i : 0 <= i < Z.of_nat (length a) -> read_at a i = Ok (at_ a i).
Proof. intro H. destruct (read_at_ok a i H) as (x & -> & E). unfold at_. rewrite (nth_error_nth _ _ _ E). auto. Qed.

Lemma read_at_inv (a : list Z) i x : read_at a i = Ok x -> 0 <= i < Z.of_nat (length a) /\ x = at_ a i.
Proof.
  intro H. assert (R : 0 <= i < Z.of_nat (length a)).
  { unfold read_at in H. destruct (Z.ltb_spec i 0); [discriminate|]. destruct (nth_error a (Z.to_nat i)) eqn:E; [|discriminate].
    assert (Z.to_nat i < length a)%nat by (apply nth_error_Some; congruence). lia. }
  split; auto. rewrite read_at_z in H by auto. injection H as <-. auto.
Qed.

Lemma nodup_add {A} (l : list A) x : NoDup l -> ~ In x l -> NoDup (l ++ [x]).
Proof.
  intros H N. apply NoDup_rev in H. rewrite <- (rev_involutive l). change [x] with (rev [x]). rewrite <- rev_app_distr. apply NoDup_rev.
  cbn [app]. constructor; auto. rewrite <- in_rev. auto.
Qed.

Section Clause.
Variable c : cline.
Variables doms soln : list Z.
Hypothesis Ld : Z.of_nat (length doms) = c_num_var c.
Hypothesis Ls : Z.of_nat (length soln) = c_num_var c.
Hypothesis Pd : forall v, 0 <= v < c_num_var c -> 0 < at_ doms v.
Hypothesis Ps : forall v, 0 <= v < c_num_var c -> 0 <= at_ soln v < at_ doms v.

Definition lit_fine (l : Z * Z) : Prop := 0 <= fst l < c_num_var c /\ 0 <= snd l < at_ doms (fst l).
Definition cl_inv (x : Z) (bs : list (Z * Z)) : Prop :=
  Z.of_nat (length bs) = x /\ NoDup (map fst bs) /\ (forall l, In l bs -> lit_fine l) /\
  (c_sat c = true -> 1 <= x -> exists l, In l bs /\ snd l = at_ soln (fst l)).

Lemma cl_inv_add x bs l : 0 <= x -> cl_inv x bs -> lit_fine l -> ~ In (fst l) (map fst bs) ->
  (c_sat c = true -> x = 0 -> snd l = at_ soln (fst l)) -> cl_inv (x + 1) (bs ++ [l]).
Proof.
  intros Hx (L & N & F & S) Fl Nl Sl. split; [rewrite app_length; simpl; lia|]. split; [|split].
  - rewrite map_app. apply nodup_add; auto.
  - intros y Hy. apply in_app_or in Hy. destruct Hy as [Hy|[<-|[]]]; auto.
  - intros St _. destruct (Z.eq_dec x 0) as [E|Nx].
    + exists l. split; [apply in_or_app; right; left; auto|auto].
    + destruct S as (y & Hy & E); auto; [lia|]. exists y. split; [apply in_or_app; auto|auto].
Qed.

Lemma cl_inv_nil : cl_inv 0 [].
Proof. split; auto. split; [constructor|]. split; [intros l []|lia]. Qed.

Lemma fin_lit_post bs x : 0 <= x -> cl_inv x bs -> post (fin_lit c doms soln bs x) (fun l => cl_inv (x + 1) (bs ++ [l])).
Proof.
  intros Hx I. assert (NV : Z.abs (c_num_var c) = c_num_var c) by lia. unfold fin_lit. destruct (c_sat c && (x =? 0)) eqn:B.
  - apply andb_true_iff in B. destruct B as (St & E0). apply Z.eqb_eq in E0.
    apply (seqr_post (rand_mod (c_num_var c)) (fun v r => let* d := read_at soln v in Ok ((v, d), r)) (fun v => 0 <= v < c_num_var c)).
    + eapply post_weak; [apply rand_post_any|]. intros v (_ & Hv). rewrite NV in Hv. exact Hv.
    + intros v Hv. rewrite read_at_z by lia. cbn [bind]. apply ret_post. apply cl_inv_add; auto; [split; cbn; auto|].
      destruct I as (L & _). destruct bs; [intros []|simpl in L; lia].
  - apply (seqr_post (rand_mod (c_num_var c)) (fun v r => let* q := redraw (c_num_var c) 0 (map fst bs) v r in let (v, r) := q in
        let* n := read_at doms v in let* q := rand_mod n r in let (d, r) := q in Ok ((v, d), r)) (fun v => 0 <= v < c_num_var c)).
    + eapply post_weak; [apply rand_post_any|]. intros v (_ & Hv). rewrite NV in Hv. exact Hv.
    + intros v Hv. apply (seqr_post (redraw (c_num_var c) 0 (map fst bs) v) (fun v r => let* n := read_at doms v in let* q := rand_mod n r in let (d, r) := q in Ok ((v, d), r))
        (fun w => 0 <= w < c_num_var c /\ ~ In w (map fst bs))).
      * intros r b r' N E. eapply (redraw_post _ 0 _ (fun w => 0 <= w < c_num_var c)) in E; eauto. intros _ i Hi. lia.
      * intros w (Hw & Fw). rewrite read_at_z by lia. cbn [bind]. specialize (Pd w Hw).
        apply (seqr_post (rand_mod (at_ doms w)) (fun d r => Ok ((w, d), r)) (fun d => 0 <= d < at_ doms w)).
        { eapply post_weak; [apply rand_post; lia|]. intros d Hd. cbn beta in Hd. lia. }
        intros d Hd. apply ret_post. apply cl_inv_add; auto; [split; cbn; auto|]. intros St E0. subst x. rewrite St in B. discriminate.
Qed.

Lemma fin_clause_post : 0 <= c_clause_size c -> post (fin_clause c doms soln) (cl_inv (c_clause_size c)).
Proof.
  intro H. unfold fin_clause. apply (after_post (fin_lit c doms soln) cl_inv (c_clause_size c) (Z.to_nat (c_clause_size c))); [lia| |apply cl_inv_nil].
  intros x bs Hx I. apply fin_lit_post; auto. lia.
Qed.

Lemma fin_lit_frame bs x : frame (fin_lit c doms soln bs x).
Proof.
  unfold fin_lit. destruct (c_sat c && (x =? 0)).
  - apply (seqr_frame (rand_mod (c_num_var c)) (fun v r => let* d := read_at soln v in Ok ((v, d), r))); [apply rand_frame|].
    intros v. destruct (read_at soln v); cbn [bind]; [apply ret_frame| |]; intros r b r' y E; discriminate.
  - apply (seqr_frame (rand_mod (c_num_var c)) (fun v r => let* q := redraw (c_num_var c) 0 (map fst bs) v r in let (v, r) := q in
        let* n := read_at doms v in let* q := rand_mod n r in let (d, r) := q in Ok ((v, d), r))); [apply rand_frame|]. intro v.
    apply (seqr_frame (redraw (c_num_var c) 0 (map fst bs) v) (fun v r => let* n := read_at doms v in let* q := rand_mod n r in let (d, r) := q in Ok ((v, d), r))); [apply redraw_frame|].
    intro w. destruct (read_at doms w) as [n| |]; cbn [bind]; [|intros r b r' y E; discriminate|intros r b r' y E; discriminate].
    apply (seqr_frame (rand_mod n) (fun d r => Ok ((w, d), r))); [apply rand_frame|]. intro; apply ret_frame.
Qed.

Lemma fin_clause_frame : frame (fin_clause c doms soln).
Proof. apply after_frame. intros. apply fin_lit_frame. Qed.

Lemma fin_lit_live bs x : 0 <= x < c_num_var c -> cl_inv x bs -> live (fin_lit c doms soln bs x) (fun l => cl_inv (x + 1) (bs ++ [l])).
Proof.
  intros Hx I. assert (NV : Z.abs (c_num_var c) = c_num_var c) by lia. unfold fin_lit. destruct (c_sat c && (x =? 0)) eqn:B.
  - apply andb_true_iff in B. destruct B as (St & E0). apply Z.eqb_eq in E0.
    apply (seqr_live (rand_mod (c_num_var c)) (fun v r => let* d := read_at soln v in Ok ((v, d), r)) (fun v => 0 <= v < c_num_var c)); [apply rand_frame| | |].
    + eapply live_weak; [apply rand_live; lia|]. intros v Hv. cbn beta in Hv. lia.
    + intros v. destruct (read_at soln v); cbn [bind]; [apply ret_frame| |]; intros r b r' y E; discriminate.
    + intros v Hv. rewrite read_at_z by lia. cbn [bind]. apply ret_live. apply cl_inv_add; auto; [lia|split; cbn; auto|].
      destruct I as (L & _). destruct bs; [intros []|simpl in L; lia].
  - assert (G : forall w, frame (fun r => let* n := read_at doms w in let* q := rand_mod n r in let (d, r) := q in Ok ((w, d), r))).
    { intro w. destruct (read_at doms w) as [n| |]; cbn [bind]; [|intros r b r' y E; discriminate|intros r b r' y E; discriminate].
      apply (seqr_frame (rand_mod n) (fun d r => Ok ((w, d), r))); [apply rand_frame|]. intro; apply ret_frame. }
    apply (seqr_live (rand_mod (c_num_var c)) (fun v r => let* q := redraw (c_num_var c) 0 (map fst bs) v r in let (v, r) := q in
        let* n := read_at doms v in let* q := rand_mod n r in let (d, r) := q in Ok ((v, d), r)) (fun v => 0 <= v < c_num_var c)); [apply rand_frame| | |].
    + eapply live_weak; [apply rand_live; lia|]. intros v Hv. cbn beta in Hv. lia.
    + intro v. apply (seqr_frame (redraw (c_num_var c) 0 (map fst bs) v) (fun v r => let* n := read_at doms v in let* q := rand_mod n r in let (d, r) := q in Ok ((v, d), r))); [apply redraw_frame|exact G].
    + intros v Hv. apply (seqr_live (redraw (c_num_var c) 0 (map fst bs) v) (fun v r => let* n := read_at doms v in let* q := rand_mod n r in let (d, r) := q in Ok ((v, d), r))
        (fun w => 0 <= w < c_num_var c /\ ~ In w (map fst bs))); [apply redraw_frame| |exact G|].
      * apply redraw_live; auto; [intros i Hi; lia|]. rewrite map_length. destruct I as (L & _). lia.
      * intros w (Hw & Fw). rewrite read_at_z by lia. cbn [bind]. specialize (Pd w Hw).
        apply (seqr_live (rand_mod (at_ doms w)) (fun d r => Ok ((w, d), r)) (fun d => 0 <= d < at_ doms w)); [apply rand_frame| |intro; apply ret_frame|].
        { eapply live_weak; [apply rand_live; lia|]. intros d Hd. cbn beta in Hd. lia. }
        intros d Hd. apply ret_live. apply cl_inv_add; auto; [lia|split; cbn; auto|]. intros St E0. subst x. rewrite St in B. discriminate.
Qed.

Lemma fin_clause_live : 0 <= c_clause_size c <= c_num_var c -> live (fin_clause c doms soln) (cl_inv (c_clause_size c)).
Proof.
  intro H. unfold fin_clause. apply (after_live (fin_lit c doms soln) cl_inv (c_clause_size c)) with (k := Z.to_nat (c_clause_size c)); [intros; apply fin_lit_frame|lia| |apply cl_inv_nil].
  intros x bs Hx I. apply fin_lit_live; auto. lia.
Qed.

(** More literals than variables: the clause is never finished. *)
Lemma no_room (bs : list (Z * Z)) : NoDup (map fst bs) -> (forall l, In l bs -> lit_fine l) -> 0 <= c_num_var c -> Z.of_nat (length bs) <= c_num_var c.
Proof.
  intros N F H. assert (I : incl (map fst bs) (loop 0 (c_num_var c))).
  { intros y Hy. apply in_map_iff in Hy. destruct Hy as (l & <- & Hl). apply in_loop. destruct (F l Hl) as (R & _). lia. }
  apply NoDup_incl_length in I; auto. rewrite map_length, loop_length in I. lia.
Qed.
End Clause.

(** ** The whole problem *)

Definition gen_lit (l : Z * Z) : lit := mkLit (fst l + 1) (snd l) true.
Definition gen_problem (doms : list Z) (cls : list (list (Z * Z))) : problem := mkProblem doms (map (map gen_lit) cls).

Definition fin_fine (c : cline) (q : list Z * list Z * list (list (Z * Z))) : Prop :=
  let '(doms, soln, cls) := q in
  Z.of_nat (length doms) = c_num_var c /\ Z.of_nat (length soln) = c_num_var c /\
  (c_drand c = false -> doms = repeat (c_domain c) (length doms)) /\
  (c_drand c = true -> forall d, In d doms -> d < Z.abs (c_domain c)) /\
  (forall v, 0 <= v < c_num_var c -> 0 < at_ doms v) /\
  (forall v, 0 <= v < c_num_var c -> 0 <= at_ soln v < at_ doms v) /\
  Z.of_nat (length cls) = c_num_clause c /\ forall cl, In cl cls -> cl_inv c doms soln (c_clause_size c) cl.

Definition fin_parts (c : cline) : rnd -> outcome ((list Z * list Z * list (list (Z * Z))) * rnd) :=
  seqr (fin_domains c) (fun doms => seqr (draws (fun n => rand_mod n) doms) (fun soln =>
    seqr (draws (fun _ => fin_clause c doms soln) (loop 0 (c_num_clause c))) (fun cls r => Ok ((doms, soln, cls), r)))).

Definition fin_alloc (c : cline) : Prop := 0 <= c_num_var c /\ 0 <= c_num_clause c /\ (0 < c_num_clause c -> 0 <= c_clause_size c).

Lemma gen_fin_parts c r : gen_fin c r =
  if (c_num_var c <? 0) || (c_num_clause c <? 0) || (0 <? c_num_clause c) && (c_clause_size c <? 0) then Undef BadAlloc
  else let* q := fin_parts c r in let '((doms, soln, cls), _) := q in Ok (fin_text c doms cls).
Proof.
  unfold gen_fin, new_array, fin_parts, seqr. destruct (c_num_var c <? 0); auto. destruct (c_num_clause c <? 0); auto. cbn [bind orb].
  destruct (0 <? c_num_clause c); cbn [andb bind]; [destruct (c_clause_size c <? 0); auto|]; cbn [bind].
  - destruct (fin_domains c r) as [[doms r1]| |]; auto. cbn [bind]. destruct (draws _ doms r1) as [[soln r2]| |]; auto. cbn [bind].
    destruct (draws _ _ r2) as [[cls r3]| |]; auto.
  - destruct (fin_domains c r) as [[doms r1]| |]; auto. cbn [bind]. destruct (draws _ doms r1) as [[soln r2]| |]; auto. cbn [bind].
    destruct (draws _ _ r2) as [[cls r3]| |]; auto.
Qed.

Lemma forall2_len {A B} (R : A -> B -> Prop) l l' : Forall2 R l l' -> length l = length l'.
Proof. induction 1; simpl; auto. Qed.

Lemma forall2_at (R : Z -> Z -> Prop) l l' : Forall2 R l l' -> forall v, 0 <= v < Z.of_nat (length l) -> R (at_ l v) (at_ l' v).
Proof.
  intros H v Hv. unfold at_. assert (L : (Z.to_nat v < length l)%nat) by lia. revert L. generalize (Z.to_nat v). clear Hv v.
  induction H as [|a b l l' H HH IH]; intros n L; [simpl in L; lia|]. destruct n; simpl; auto. apply IH. simpl in L. lia.
Qed.

Lemma forall2_right {A B} (R : A -> B -> Prop) l l' : Forall2 R l l' -> forall y, In y l' -> exists x, In x l /\ R x y.
Proof. intro H. induction H as [|a b l l' H HH IH]; intros y Hy; [destruct Hy|]. destruct Hy as [->|Hy]; [exists a; split; [left|]; auto|]. destruct (IH y Hy) as (x & Hx & K). exists x. split; [right|]; auto. Qed.

Definition dom_fine (c : cline) (doms : list Z) : Prop :=
  Z.of_nat (length doms) = c_num_var c /\
  (c_drand c = false -> doms = repeat (c_domain c) (length doms)) /\
  (c_drand c = true -> forall d, In d doms -> 0 <= d < Z.abs (c_domain c)).

Lemma map_const {A} (d : Z) (l : list A) : map (fun _ => d) l = repeat d (length l).
Proof. induction l; simpl; f_equal; auto. Qed.

Lemma fin_domains_post c : 0 <= c_num_var c -> post (fin_domains c) (dom_fine c).
Proof.
  intro H. unfold fin_domains. destruct (c_drand c) eqn:D.
  - eapply post_weak; [apply (draws_post _ (fun _ d => c_domain c <> 0 /\ 0 <= d < Z.abs (c_domain c)))|].
    + intros x _. apply rand_post_any.
    + intros doms F. pose proof (forall2_len _ _ _ F) as L. rewrite loop_length in L. split; [lia|]. split; [congruence|].
      intros _ d Hd. destruct (forall2_right _ _ _ F d Hd) as (x & _ & _ & K). exact K.
  - apply ret_post. split; [rewrite map_length, loop_length; lia|]. split; [|congruence]. intros _. rewrite map_length. apply map_const.
Qed.

Lemma at_in l v : 0 <= v < Z.of_nat (length l) -> In (at_ l v) l.
Proof. intro H. unfold at_. apply nth_In. lia. Qed.

Lemma fin_parts_post c : fin_alloc c -> (c_drand c = false -> 1 <= c_domain c) -> post (fin_parts c) (fin_fine c).
Proof.
  intros (A1 & A2 & A3) HD. apply (seqr_post _ _ (dom_fine c)); [apply fin_domains_post; auto|]. intros doms (L & D1 & D2).
  apply (seqr_post _ _ (Forall2 (fun n v => n <> 0 /\ 0 <= v < Z.abs n) doms)); [apply draws_post; intros; apply rand_post_any|].
  intros soln F. pose proof (forall2_len _ _ _ F) as L2.
  assert (P1 : forall v, 0 <= v < c_num_var c -> 0 < at_ doms v).
  { intros v Hv. pose proof (at_in doms v ltac:(lia)) as I. pose proof (forall2_at _ _ _ F v ltac:(lia)) as (N & _). destruct (c_drand c).
    - specialize (D2 eq_refl _ I). lia.
    - specialize (HD eq_refl). assert (E : forall d, In d doms -> d = c_domain c) by (intros d Hd; rewrite (D1 eq_refl) in Hd; apply repeat_spec in Hd; auto).
      rewrite (E _ I). lia. }
  assert (P2 : forall v, 0 <= v < c_num_var c -> 0 <= at_ soln v < at_ doms v).
  { intros v Hv. specialize (P1 v Hv). pose proof (forall2_at _ _ _ F v ltac:(lia)) as (_ & K). lia. }
  apply (seqr_post _ _ (Forall2 (fun _ cl => cl_inv c doms soln (c_clause_size c) cl) (loop 0 (c_num_clause c)))).
  - apply draws_post. intros x Hx. apply in_loop in Hx. apply fin_clause_post; auto; lia.
  - intros cls FC. pose proof (forall2_len _ _ _ FC) as L3. rewrite loop_length in L3. apply ret_post.
    split; [auto|]. split; [lia|]. split; [auto|]. split; [intros E d Hd; apply (D2 E d Hd)|]. split; [auto|]. split; [auto|]. split; [lia|].
    intros cl Hcl. destruct (forall2_right _ _ _ FC cl Hcl) as (x & _ & K). exact K.
Qed.

Lemma fin_parts_live c : fin_alloc c -> c_drand c = false -> 1 <= c_domain c -> (0 < c_num_clause c -> c_clause_size c <= c_num_var c) ->
  live (fin_parts c) (fun _ => True).
Proof.
  intros (A1 & A2 & A3) HR HD HS.
  assert (F3 : forall doms soln, frame (seqr (draws (fun _ => fin_clause c doms soln) (loop 0 (c_num_clause c))) (fun cls r => Ok ((doms, soln, cls), r)))).
  { intros doms soln. apply seqr_frame; [apply draws_frame; intros; apply fin_clause_frame|intro; apply ret_frame]. }
  assert (F2 : forall doms, frame (seqr (draws (fun n => rand_mod n) doms) (fun soln =>
    seqr (draws (fun _ => fin_clause c doms soln) (loop 0 (c_num_clause c))) (fun cls r => Ok ((doms, soln, cls), r))))).
  { intro doms. apply seqr_frame; [apply draws_frame; intros; apply rand_frame|auto]. }
  assert (F1 : frame (fin_domains c)) by (unfold fin_domains; rewrite HR; apply ret_frame).
  apply (seqr_live _ _ (dom_fine c)); auto.
  - unfold fin_domains. rewrite HR. apply ret_live. split; [rewrite map_length, loop_length; lia|]. split; [|congruence]. intros _. rewrite map_length. apply map_const.
  - intros doms (L & D1 & _). assert (D3 : forall d, In d doms -> d = c_domain c) by (intros d Hd; rewrite (D1 HR) in Hd; apply repeat_spec in Hd; auto).
    apply (seqr_live _ _ (Forall2 (fun n v => 0 <= v < Z.abs n) doms)); auto.
    + apply draws_frame. intros; apply rand_frame.
    + apply draws_live; [intros; apply rand_frame|]. intros d Hd. apply rand_live. rewrite (D3 d Hd). lia.
    + intros soln F. pose proof (forall2_len _ _ _ F) as L2.
      assert (P1 : forall v, 0 <= v < c_num_var c -> 0 < at_ doms v) by (intros v Hv; rewrite (D3 _ (at_in doms v ltac:(lia))); lia).
      assert (P2 : forall v, 0 <= v < c_num_var c -> 0 <= at_ soln v < at_ doms v).
      { intros v Hv. specialize (P1 v Hv). pose proof (forall2_at _ _ _ F v ltac:(lia)) as K. cbn beta in K. lia. }
      apply (seqr_live _ _ (Forall2 (fun _ cl => cl_inv c doms soln (c_clause_size c) cl) (loop 0 (c_num_clause c)))).
      * apply draws_frame. intros; apply fin_clause_frame.
      * apply draws_live; [intros; apply fin_clause_frame|]. intros x Hx. apply in_loop in Hx. apply fin_clause_live; auto; lia.
      * intro; apply ret_frame.
      * intros cls _. apply ret_live. exact I.
Qed.
