(** * How far the counters of the first version drift

    A counter is lowered at most once per occurrence between two conflicts, and raised when a
    conflict is undone, but not always the counter that was lowered. *)

From Verif Require Import Spec Outcome State Base ModelCounter ModelSearch ModelBuild Init ModelOrig OrigCid.
#[local] Open Scope Z_scope.

(** ** Sums *)

Definition sumz {A} (f : A -> Z) (L : list A) : Z := fold_right (fun n a => f n + a) 0 L.
Lemma sumz_le {A} (f g : A -> Z) L : (forall n, In n L -> f n <= g n) -> sumz f L <= sumz g L.
Proof.
  induction L as [|n L IH]; intro H; simpl; [lia|]. pose proof (H n (or_introl eq_refl)).
  specialize (IH (fun m I => H m (or_intror I))). lia.
Qed.
Lemma sumz_0 {A} (f : A -> Z) L : (forall n, In n L -> 0 <= f n) -> 0 <= sumz f L.
Proof.
  induction L as [|n L IH]; intro H; simpl; [lia|]. pose proof (H n (or_introl eq_refl)).
  specialize (IH (fun m I => H m (or_intror I))). lia.
Qed.
Lemma sumz_ext {A} (f g : A -> Z) L : (forall n, In n L -> f n = g n) -> sumz f L = sumz g L.
Proof.
  induction L as [|n L IH]; intro H; simpl; auto. rewrite (H n (or_introl eq_refl)).
  rewrite IH; auto. intros m I. apply H. right. exact I.
Qed.
Lemma sumz_one (f g : nat -> Z) n L : NoDup L -> In n L -> (forall m, m <> n -> f m = g m) ->
  sumz f L - sumz g L = f n - g n.
Proof.
  induction 1 as [|m L N ND IH]; intros I H; [destruct I|]. simpl. destruct I as [->|I].
  - rewrite (sumz_ext f g L); [lia|]. intros m J. apply H. intros ->. auto.
  - rewrite (H m) by (intros ->; auto). specialize (IH I H). lia.
Qed.
Lemma sumz_app {A} (f : A -> Z) L L' : sumz f (L ++ L') = sumz f L + sumz f L'.
Proof. induction L as [|n L IH]; simpl; [lia|]. rewrite IH. lia. Qed.

(** ** What is still to be subtracted from the counter of a literal *)

Definition occz (x : lit) (c : clause) : Z := Z.of_nat (occ x c).
Definition at_cl (s : state) (n : nat) : clause := nth n (cl s) [].
Definition ids (s : state) : list nat := seq 0 (length (cl s)).
Definition lrec (x : lit) (s : state) : Z := Z.of_nat (length (rec s x)).
Definition size (s : state) : Z := sumz (fun c : clause => Z.of_nat (length c)) (cl s).

Definition phi (x : lit) (o : orig) : Z :=
  sumz (fun n => if ocsat o n then 0 else occz x (at_cl (ost o) n)) (ids (ost o)) +
  (if lit_un (tr (ost o)) x then lrec x (ost o) else 0).
Definition slack (x : lit) (o : orig) : Z := cnt (ost o) x - phi x o.

Lemma phi_0 x o : 0 <= phi x o.
Proof.
  unfold phi. assert (0 <= sumz (fun n => if ocsat o n then 0 else occz x (at_cl (ost o) n)) (ids (ost o))).
  { apply sumz_0. intros n _. unfold occz. destruct (ocsat o n); lia. }
  unfold lrec. destruct (lit_un _ x); lia.
Qed.
Lemma countb_length {A} (f : A -> bool) L : (countb f L <= length L)%nat.
Proof. induction L as [|a L IH]; simpl; auto. unfold countb in *. simpl. destruct (f a); simpl; lia. Qed.
Lemma sumz_nth (f : clause -> Z) L : sumz (fun n => f (nth n L [])) (seq 0 (length L)) = sumz f L.
Proof.
  induction L as [|c L IH] using rev_ind; auto. rewrite app_length. simpl. rewrite Nat.add_1_r, seq_S, !sumz_app. simpl.
  rewrite app_nth2, Nat.sub_diag by lia. simpl. rewrite <- IH. f_equal. apply sumz_ext. intros n I. apply in_seq in I.
  rewrite app_nth1 by lia. auto.
Qed.
Lemma phi_le x o : phi x o <= size (ost o) + lrec x (ost o).
Proof.
  unfold phi. assert (sumz (fun n => if ocsat o n then 0 else occz x (at_cl (ost o) n)) (ids (ost o)) <= size (ost o)).
  { unfold size. rewrite <- (sumz_nth (fun c : clause => Z.of_nat (length c)) (cl (ost o))).
    apply sumz_le. intros n _. unfold occz, at_cl, occ. destruct (ocsat o n); [apply Nat2Z.is_nonneg|].
    apply inj_le, countb_length. }
  unfold lrec. destruct (lit_un _ x); lia.
Qed.

(** ** Assigning *)

Record fr (x : lit) (o o' : orig) : Prop := mkFr {
  fr_cl : cl (ost o') = cl (ost o);
  fr_rec : rec (ost o') = rec (ost o);
  fr_bt : backtracks (ost o') = backtracks (ost o);
  fr_slack : slack x o <= slack x o';
  fr_up : cnt (ost o') x <= cnt (ost o) x
}.
Lemma fr_refl x o : fr x o o.
Proof. split; auto; lia. Qed.
Lemma fr_trans x a b c : fr x a b -> fr x b c -> fr x a c.
Proof. intros [] []; split; try congruence; lia. Qed.
Lemma fr_bind {A} x o (P : A -> orig) (r : outcome A) (f : A -> outcome orig) :
  pres (fun a => fr x o (P a)) r -> (forall a, fr x o (P a) -> pres (fr x (P a)) (f a)) -> pres (fr x o) (bind r f).
Proof.
  destruct r as [a| |]; simpl; auto. intros H F. specialize (F a H). destruct (f a); simpl in *; auto.
  eapply fr_trans; eauto.
Qed.
Lemma fr_step x o (r : outcome orig) f :
  pres (fr x o) r -> (forall a, fr x o a -> pres (fr x a) (f a)) -> pres (fr x o) (bind r f).
Proof. apply (fr_bind x o (fun a => a)). Qed.
Lemma fr_fold {A} x (f : orig -> A -> outcome orig) L o :
  (forall o a, pres (fr x o) (f o a)) -> pres (fr x o) (foldM f L o).
Proof.
  intro F. revert o. induction L as [|a L IH]; intro o; cbn [foldM]; [apply fr_refl|].
  apply fr_step; auto.
Qed.

(** The same clauses, records, trail and flags, and other counters *)
Lemma fr_same x o o' : cl (ost o') = cl (ost o) -> rec (ost o') = rec (ost o) ->
  backtracks (ost o') = backtracks (ost o) -> ASG (tr (ost o')) = ASG (tr (ost o)) -> ocsat o' = ocsat o ->
  cnt (ost o') = cnt (ost o) -> fr x o o'.
Proof.
  intros A B C D E F. split; auto.
  - unfold slack, phi, ids, at_cl, lit_un, lrec. rewrite A, B, D, E, F. lia.
  - rewrite F. lia.
Qed.

Record dec_ok (n : nat) (x : lit) (k : Z) (s s' : state) : Prop := mkDec {
  de_cl : cl s' = cl s; de_rec : rec s' = rec s; de_bt : backtracks s' = backtracks s; de_tr : tr s' = tr s;
  de_lo : cnt s x - k <= cnt s' x; de_hi : cnt s' x <= cnt s x
}.
Lemma dec_fold n x c : forall s, pres (dec_ok n x (occz x c) s) (foldM (o_dec n) c s).
Proof.
  induction c as [|l c IH]; intro s; cbn [foldM].
  - split; auto; unfold occz, occ, countb; simpl; lia.
  - apply (pres_bind (dec_ok n x (if lit_eqb x l then 1 else 0) s)).
    + unfold o_dec. apply pres_any. intros _.
      destruct (lit_un (tr s) l); split; auto; simpl; unfold updl;
        destruct (lit_eqb_spec x l); subst; try lia; rewrite ?lit_eqb_refl; lia.
    + intros s1 [a1 a2 a3 a4 a5 a6]. specialize (IH s1). destruct (foldM (o_dec n) c s1) as [s2| |]; simpl in *; auto.
      destruct IH as [b1 b2 b3 b4 b5 b6]. split; try congruence; [|lia].
      unfold occz, occ, countb in *. simpl. destruct (lit_eqb x l); simpl in *; lia.
Qed.

Lemma fr_satisfy x o l : pres (fr x o) (o_satisfy o l).
Proof.
  unfold o_satisfy. apply pres_any. intros _. apply fr_fold. clear o l. intros o n.
  unfold o_sat_step. unfold getcl. destruct (nth_error (cl (ost o)) n) as [c|] eqn:E; cbn [bind]; [|exact I].
  destruct (ocsat o n) eqn:S; [apply fr_refl|]. cbn [ost set_ocsat].
  set (s1 := set_clev (ost o) (updn (clev (ost o)) n (level (ost o)))).
  pose proof (dec_fold n x c s1) as D. destruct (foldM (o_dec n) c s1) as [s2| |]; simpl in *; auto.
  destruct D as [a1 a2 a3 a4 a5 a6]. unfold s1 in *. simpl in *. split; auto.
  unfold slack, phi, ids, at_cl. cbn [ost on ocsat set_ocsat]. rewrite a1, a4. unfold lrec. rewrite a2.
  assert (Q := sumz_one (fun m => if ocsat o m then 0 else occz x (nth m (cl (ost o)) []))
                 (fun m => if updn (ocsat o) n true m then 0 else occz x (nth m (cl (ost o)) [])) n
                 (seq 0 (length (cl (ost o)))) (seq_NoDup _ _)).
  lapply Q; clear Q; [intro Q|apply in_seq; apply nth_error_lt in E; lia].
  lapply Q; clear Q; [intro Q|intros m Nm; rewrite updn_other; auto].
  cbn beta in Q. rewrite S, updn_same in Q.
  assert (X : nth n (cl (ost o)) [] = c) by (apply nth_error_nth; exact E). unfold clause in *. rewrite X in Q. lia.
Qed.

Record rem_ok (x : lit) (k : Z) (o o' : orig) : Prop := mkRem {
  re_cl : cl (ost o') = cl (ost o); re_rec : rec (ost o') = rec (ost o);
  re_bt : backtracks (ost o') = backtracks (ost o); re_tr : tr (ost o') = tr (ost o); re_sat : ocsat o' = ocsat o;
  re_lo : cnt (ost o) x - k <= cnt (ost o') x; re_hi : cnt (ost o') x <= cnt (ost o) x
}.
Lemma rem_fold x l L : forall o, pres (rem_ok x (if lit_eqb x l then Z.of_nat (length L) else 0) o) (foldM (o_remove_step l) L o).
Proof.
  induction L as [|n L IH]; intro o; cbn [foldM].
  - split; auto; destruct (lit_eqb x l); simpl; lia.
  - apply (pres_bind (rem_ok x (if lit_eqb x l then 1 else 0) o)).
    + unfold o_remove_step. apply pres_any. intros _.
      destruct (ocsat o n); [split; auto; destruct (lit_eqb x l); lia|].
      destruct (num (ost o) n - 1 =? 1), (num (ost o) n - 1 =? 0); split; auto; simpl; unfold updl;
        destruct (lit_eqb_spec x l); subst; lia.
    + intros o1 [a1 a2 a3 a4 a5 a6 a7]. specialize (IH o1). destruct (foldM (o_remove_step l) L o1) as [o2| |]; simpl in *; auto.
      destruct IH as [b1 b2 b3 b4 b5 b6 b7]. split; try congruence; [|lia].
      destruct (lit_eqb x l); cbn [length] in *; lia.
Qed.

Lemma fr_assign x o v d a : ASG (tr (ost o)) v d = Un -> a <> Un -> pres (fr x o) (o_assign o v d a).
Proof.
  intros U Na. unfold o_assign. set (l := mkLit v d (match a with Pos => true | _ => false end)).
  pose proof (sco_satisfy o l) as C. pose proof (fr_satisfy x o l) as F.
  destruct (o_satisfy o l) as [o1| |]; cbn [bind]; try exact I. simpl in F, C. destruct C as (_ & C & _).
  unfold o_remove. destruct (chk (tr (ost o1)) (neg l)); cbn [bind]; try exact I.
  pose proof (rem_fold x (neg l) (rec (ost o1) (neg l)) o1) as D.
  destruct (foldM (o_remove_step (neg l)) _ o1) as [o2| |]; cbn [bind]; try exact I. simpl in D.
  destruct D as [a1 a2 a3 a4 a5 a6 a7]. eapply fr_trans; [exact F|]. simpl. split; auto. clear F.
  unfold slack, phi, ids, at_cl, lrec. cbn [ost on cnt set_atom set_tr cl rec ocsat tr].
  rewrite a1, a2, a5. unfold lit_un. cbn [ASG]. rewrite a4, C. unfold upd2.
  destruct (lit_eqb_spec x (neg l)) as [->|Nx].
  - cbn [neg l lvar lval]. rewrite !Z.eqb_refl. cbn [andb]. rewrite U. destruct a; try congruence; lia.
  - destruct ((lvar x =? v) && (lval x =? d)); [|lia].
    destruct (ASG (tr (ost o)) (lvar x) (lval x)), a; try congruence; lia.
Qed.

Lemma fr_exclude x v o i : pres (fr x o) (o_exclude v o i).
Proof.
  unfold o_exclude. destruct (conflict (ost o)); [apply fr_refl|].
  destruct (ASG (tr (ost o)) v i) eqn:E; try apply fr_refl. apply fr_assign; auto. discriminate.
Qed.
Lemma fr_reduce_pos x o v d : ASG (tr (ost o)) v d = Un -> pres (fr x o) (o_reduce_pos o v d).
Proof.
  intro U. unfold o_reduce_pos. apply pres_any. intros _.
  apply fr_step; [apply fr_assign; auto; discriminate|]. intros o1 F1.
  set (o2 := on _ _). assert (F2 : fr x o1 o2) by (apply fr_same; reflexivity). clearbody o2.
  assert (G : pres (fr x o2) (let* o := foldM (o_exclude v) (zrange 0 d) o2 in
    foldM (o_exclude v) (zrange (d + 1) (DOM (tr (ost o)) v - (d + 1))) o)).
  { apply fr_step; [apply fr_fold; intros; apply fr_exclude|]. intros o3 _. apply fr_fold; intros; apply fr_exclude. }
  destruct (bind _ _); simpl in *; auto. eapply fr_trans; eauto.
Qed.
Lemma entail_loop_un t v : forall L f e, entail_loop t v L f = Some e -> (f = Some e) \/ (In e L /\ ASG t v e = Un).
Proof.
  induction L as [|j L IH]; intros f e E; simpl in E; auto. destruct (ASG t v j) eqn:A.
  - destruct f; [discriminate|]. destruct (IH _ _ E) as [X|(X & Y)]; [|right; simpl; auto].
    injection X as ->. right. simpl. auto.
  - destruct (IH _ _ E) as [X|(X & Y)]; [auto|right; simpl; auto].
  - destruct (IH _ _ E) as [X|(X & Y)]; [auto|right; simpl; auto].
Qed.
Lemma fr_reduce x o l : lit_un (tr (ost o)) l = true -> pres (fr x o) (o_reduce o l).
Proof.
  intro U. assert (U' : ASG (tr (ost o)) (lvar l) (lval l) = Un).
  { unfold lit_un in U. destruct (ASG _ _ _); auto; discriminate. }
  unfold o_reduce. destruct (leq l); [apply fr_reduce_pos; auto|].
  unfold o_reduce_neg. apply pres_any. intros _.
  apply fr_step; [apply fr_assign; auto; discriminate|]. intros o1 F1.
  set (o2 := on _ _). assert (F2 : fr x o1 o2) by (apply fr_same; reflexivity). clearbody o2.
  cut (pres (fr x o2) (let* q := o_check_entail o2 (lvar l) in
    let (o, f) := q in match f with
    | Some e => o_reduce_pos (on o (set_entails (ost o) (entails (ost o) + 1))) (lvar l) e
    | None => Ok o end)).
  { intro G. destruct (bind _ _); simpl in *; auto. eapply fr_trans; eauto. }
  unfold o_check_entail. destruct (delete_ptr (optr o2)) as [e| |]; cbn [bind]; try exact I.
  destruct (if osat o2 (lvar l) then None else check_entail (tr (ost o2)) (lvar l)) as [d|] eqn:E; cbn [bind].
  - destruct (osat o2 (lvar l)); [discriminate|]. unfold check_entail in E.
    destruct (entail_loop_un _ _ _ _ _ E) as [X|(_ & X)]; [discriminate|].
    set (o3 := on _ _). assert (F3 : fr x o2 o3) by (apply fr_same; reflexivity).
    pose proof (fr_reduce_pos x o3 (lvar l) d X) as G. clearbody o3. destruct (o_reduce_pos o3 _ _); simpl in *; auto.
    eapply fr_trans; eauto.
  - apply fr_same; reflexivity.
Qed.

Lemma first_un_un t c l : first_un t c = Ok (Some l) -> lit_un t l = true.
Proof.
  induction c as [|a c IH]; simpl; [discriminate|]. destruct (chk t a); simpl; try discriminate.
  destruct (lit_un t a) eqn:E; auto. intro X. injection X as ->. exact E.
Qed.
Lemma fr_propagate_loop x fuel : forall o, pres (fr x o) (o_propagate_loop fuel o).
Proof.
  induction fuel as [|f IH]; intros o; [exact I|]. cbn [o_propagate_loop]. cbv zeta.
  destruct (conflict (ost o)); [apply fr_refl|]. destruct (ulist (ost o)) as [|k rest]; [apply fr_refl|].
  destruct (getcl _ k) as [c| |]; cbn [bind]; try exact I.
  set (o1 := on o _). assert (F1 : fr x o o1) by (apply fr_same; reflexivity).
  assert (G : pres (fr x o1) (o_propagate_loop f o1)) by apply IH.
  destruct (ocsat o k). { destruct (o_propagate_loop f o1); simpl in *; auto. eapply fr_trans; eauto. }
  destruct (first_un _ c) as [[l|]| |] eqn:E; cbn [bind]; try exact I.
  - apply first_un_un in E. pose proof (fr_reduce x o1 l E) as H. clearbody o1.
    destruct (o_reduce o1 l) as [o2| |]; cbn [bind]; try exact I. simpl in H. specialize (IH o2).
    destruct (o_propagate_loop f o2); simpl in *; auto. eapply fr_trans; eauto. eapply fr_trans; eauto.
  - destruct (o_propagate_loop f o1); simpl in *; auto. eapply fr_trans; eauto.
Qed.
Lemma fr_propagate x fuel o : pres (fr x o) (o_propagate fuel o).
Proof.
  unfold o_propagate. apply fr_step; [apply fr_propagate_loop|]. intros o1 _.
  destruct (conflict (ost o1)); [apply fr_same; reflexivity|apply fr_refl].
Qed.
Lemma fr_decide x o l : lit_un (tr (ost o)) l = true -> pres (fr x o) (o_decide o l).
Proof.
  intro U. unfold o_decide. cbv zeta. set (o1 := on o _). assert (F1 : fr x o o1) by (apply fr_same; reflexivity).
  pose proof (fr_reduce x o1 l U) as H. clearbody o1. destruct (o_reduce o1 l); simpl in *; auto.
  eapply fr_trans; eauto.
Qed.

(** ** Undoing *)

(** What can still be added to a counter by unsatisfyClauses *)
Definition psi (lev : Z) (o : orig) : Z :=
  sumz (fun n => if lev <? clev (ost o) n then Z.of_nat (length (at_cl (ost o) n)) else 0) (ids (ost o)).
Lemma psi_0 lev o : 0 <= psi lev o.
Proof. apply sumz_0. intros n _. destruct (lev <? _); lia. Qed.
Lemma psi_le lev o : psi lev o <= size (ost o).
Proof.
  unfold size. rewrite <- (sumz_nth (fun c : clause => Z.of_nat (length c)) (cl (ost o))).
  apply sumz_le. intros n _. unfold at_cl. destruct (lev <? _); [apply Z.le_refl|apply Nat2Z.is_nonneg].
Qed.

Record un (x : lit) (lev k : Z) (o o' : orig) : Prop := mkUn {
  un_cl : cl (ost o') = cl (ost o);
  un_rec : rec (ost o') = rec (ost o);
  un_bt : backtracks (ost o') = backtracks (ost o);
  un_up : cnt (ost o) x <= cnt (ost o') x;
  un_psi : cnt (ost o') x + psi lev o' <= cnt (ost o) x + psi lev o + k
}.
Lemma un_same x lev o o' : cl (ost o') = cl (ost o) -> rec (ost o') = rec (ost o) ->
  backtracks (ost o') = backtracks (ost o) -> clev (ost o') = clev (ost o) -> cnt (ost o') = cnt (ost o) -> un x lev 0 o o'.
Proof.
  intros A B C D F. split; auto.
  - rewrite F. lia.
  - unfold psi, ids, at_cl. rewrite A, D, F. lia.
Qed.
Lemma un_refl x lev o : un x lev 0 o o.
Proof. apply un_same; auto. Qed.
Lemma un_trans x lev i j k a b c : un x lev i a b -> un x lev j b c -> i + j <= k -> un x lev k a c.
Proof. intros [] [] L; split; try congruence; lia. Qed.
Lemma un_step x lev o (r : outcome orig) f :
  pres (un x lev 0 o) r -> (forall a, un x lev 0 o a -> pres (un x lev 0 a) (f a)) -> pres (un x lev 0 o) (bind r f).
Proof.
  destruct r as [a| |]; simpl; auto. intros H F. specialize (F a H). destruct (f a); simpl in *; auto.
  eapply un_trans; eauto. lia.
Qed.
Lemma un_fold {A} x lev (f : orig -> A -> outcome orig) L o :
  (forall o a, pres (un x lev 0 o) (f o a)) -> pres (un x lev 0 o) (foldM f L o).
Proof.
  intro F. revert o. induction L as [|a L IH]; intro o; cbn [foldM]; [apply un_refl|].
  apply un_step; auto.
Qed.

Lemma un_add_fold x lev l L : forall o,
  pres (un x lev (if lit_eqb x l then Z.of_nat (length L) else 0) o) (foldM (o_add_step l) L o).
Proof.
  induction L as [|n L IH]; intro o; cbn [foldM].
  - simpl. destruct (lit_eqb x l); apply un_refl.
  - apply (pres_bind (un x lev (if lit_eqb x l then 1 else 0) o)).
    + unfold o_add_step. apply pres_any. intros _. destruct (ocsat o n).
      * eapply un_trans; [apply un_refl|apply un_refl|destruct (lit_eqb x l); lia].
      * split; auto; simpl; unfold updl; [|unfold psi, ids, at_cl; simpl]; destruct (lit_eqb_spec x l); subst; lia.
    + intros o1 H1. specialize (IH o1). destruct (foldM (o_add_step l) L o1) as [o2| |]; simpl in *; auto.
      eapply un_trans; [exact H1|exact IH|]. destruct (lit_eqb x l); cbn [length]; lia.
Qed.
Lemma un_add x lev o l : pres (un x lev (if lit_eqb x l then lrec x (ost o) else 0) o) (o_add o l).
Proof.
  unfold o_add. apply pres_any. intros _. pose proof (un_add_fold x lev l (rec (ost o) l) o) as H.
  destruct (foldM _ _ _); simpl in *; auto. eapply un_trans; [exact H|apply un_refl|].
  destruct (lit_eqb_spec x l); subst; unfold lrec; lia.
Qed.

Definition has_atom (x : lit) (L : list (Z * Z)) : bool :=
  existsb (fun a => (fst a =? lvar x) && (snd a =? lval x)) L.
Lemma un_undo1_fold x lev L : NoDup L -> forall o,
  pres (un x lev (if has_atom x L then lrec x (ost o) else 0) o) (foldM (o_undo1 lev) L o).
Proof.
  induction 1 as [|(v, d) L N ND IH]; intro o; cbn [foldM]; [apply un_refl|].
  set (b := (v =? lvar x) && (d =? lval x)).
  apply (pres_bind (un x lev (if b then lrec x (ost o) else 0) o)).
  - assert (G : forall e, pres (un x lev (if b then lrec x (ost o) else 0) o) (o_add o (mkLit v d e))).
    { intro e. pose proof (un_add x lev o (mkLit v d e)) as H. destruct (o_add _ _); simpl in *; auto.
      eapply un_trans; [exact H|apply un_refl|]. unfold b.
      destruct (lit_eqb_spec x (mkLit v d e)); [subst; simpl; rewrite !Z.eqb_refl; simpl; lia|].
      unfold lrec. destruct (_ && _); lia. }
    unfold o_undo1. destruct (lev <? _).
    + destruct (ASG (tr (ost o)) v d); apply G.
    + eapply un_trans; [apply un_refl|apply un_refl|]. unfold lrec. destruct b; lia.
  - intros o1 H1. specialize (IH o1). destruct (foldM _ L o1); simpl in *; auto.
    assert (Q : lrec x (ost o1) = lrec x (ost o)) by (unfold lrec; rewrite (un_rec _ _ _ _ _ H1); auto).
    rewrite Q in IH. eapply un_trans; [exact H1|exact IH|]. fold b. unfold lrec.
    destruct b eqn:Eb; [|simpl; destruct (has_atom x L); lia].
    assert (has_atom x L = false) as ->; [|simpl; lia].
    unfold b in Eb. apply andb_true_iff in Eb. destruct Eb as (E1 & E2). apply Z.eqb_eq in E1, E2. subst v d.
    apply not_true_is_false. intro X. apply existsb_exists in X. destruct X as ((v & d) & I & X). simpl in X.
    apply andb_true_iff in X. destruct X as (E1 & E2). apply Z.eqb_eq in E1, E2. subst v d. auto.
Qed.

Record inc_ok (x : lit) (k : Z) (s s' : state) : Prop := mkInc {
  in_cl : cl s' = cl s; in_rec : rec s' = rec s; in_bt : backtracks s' = backtracks s; in_clev : clev s' = clev s;
  in_lo : cnt s x <= cnt s' x; in_hi : cnt s' x <= cnt s x + k
}.
Lemma inc_fold x e lev n c : forall s, pres (inc_ok x (Z.of_nat (length c)) s) (foldM (o_inc e lev n) c s).
Proof.
  induction c as [|l c IH]; intro s; cbn [foldM].
  - split; auto; simpl; lia.
  - apply (pres_bind (inc_ok x 1 s)).
    + unfold o_inc. apply pres_any. intros _. destruct ((lev <? _) || _); split; auto; simpl; unfold updl; try lia;
        destruct (lit_eqb_spec x (mkLit (lvar l) (lval l) e)); subst; lia.
    + intros s1 [a1 a2 a3 a4 a5 a6]. specialize (IH s1). destruct (foldM _ c s1) as [s2| |]; simpl in *; auto.
      destruct IH as [b1 b2 b3 b4 b5 b6]. split; try congruence; lia.
Qed.
Lemma un_unsatisfy x lev o l : -1 <= lev -> pres (un x lev 0 o) (o_unsatisfy lev o l).
Proof.
  intro Lv. unfold o_unsatisfy. apply pres_any. intros _. apply un_fold. clear o. intros o n.
  unfold o_unsat_step. unfold getcl. destruct (nth_error (cl (ost o)) n) as [c|] eqn:E; cbn [bind]; [|exact I].
  destruct (lev <? clev (ost o) n) eqn:S; [|apply un_refl].
  pose proof (inc_fold x (leq l) lev n c (ost o)) as D. destruct (foldM _ c (ost o)) as [s2| |]; simpl in *; auto.
  destruct D as [a1 a2 a3 a4 a5 a6]. split; auto.
  unfold psi, ids, at_cl. cbn [ost on cl clev set_clev cnt set_ocsat]. rewrite a1, a4.
  assert (Q := sumz_one (fun m => if lev <? clev (ost o) m then Z.of_nat (length (nth m (cl (ost o)) [])) else 0)
                 (fun m => if lev <? updn (clev (ost o)) n (-1) m then Z.of_nat (length (nth m (cl (ost o)) [])) else 0) n
                 (seq 0 (length (cl (ost o)))) (seq_NoDup _ _)).
  lapply Q; clear Q; [intro Q|apply in_seq; apply nth_error_lt in E; lia].
  lapply Q; clear Q; [intro Q|intros m Nm; rewrite updn_other; auto].
  cbn beta in Q. rewrite S, updn_same in Q.
  assert (Y : nth n (cl (ost o)) [] = c) by (apply nth_error_nth; exact E). unfold clause in *. rewrite Y in Q.
  assert ((lev <? -1) = false) as X by lia. rewrite X in Q. lia.
Qed.

Lemma un_undo x lev o : -1 <= lev -> pres (fun o' =>
    cl (ost o') = cl (ost o) /\ rec (ost o') = rec (ost o) /\ backtracks (ost o') = backtracks (ost o) /\
    cnt (ost o) x <= cnt (ost o') x <= cnt (ost o) x + size (ost o) + lrec x (ost o)) (o_undo o lev).
Proof.
  intro Lv. unfold o_undo.
  pose proof (un_undo1_fold x lev (atoms_from (tr (ost o)) 1) (nodup_atoms _ _) o) as U1.
  destruct (foldM (o_undo1 lev) _ o) as [o1| |]; cbn [bind]; try exact I. simpl in U1.
  assert (U2 : pres (un x lev 0 o1) (let* o := foldM (o_undo_var lev) (zrange 1 (NV (tr (ost o1)))) o1 in
     let* s := prune_dst (ost o) in Ok (on o s))).
  { apply un_step.
    - apply un_fold. clear o o1 U1. intros o v. unfold o_undo_var. apply un_step.
      + apply un_fold. clear o. intros o d. unfold o_undo2. destruct (lev <? _); [|apply un_refl].
        apply un_step; [destruct (ASG (tr (ost o)) v d); apply un_unsatisfy; auto|].
        intros o1 _. apply un_same; reflexivity.
      + intros o1 _. destruct (lev <? ovlev o1 v); [apply un_same; reflexivity|apply un_refl].
    - intros o2 _. unfold prune_dst. destruct (forallb _ _); cbn [bind]; [|exact I]. apply un_same; reflexivity. }
  destruct (bind _ _) as [o2| |]; simpl in *; auto.
  destruct U1 as [a1 a2 a3 a4 a5], U2 as [b1 b2 b3 b4 b5].
  pose proof (psi_0 lev o2). pose proof (psi_le lev o).
  split; [congruence|]. split; [congruence|]. split; [congruence|].
  assert (0 <= lrec x (ost o)) by (unfold lrec; lia). destruct (has_atom x _); lia.
Qed.

(** ** Bounds *)

Definition drift (T : Z) (o : orig) : Prop :=
  let B := backtracks (ost o) in
  0 <= B /\ 0 <= T /\ size (ost o) = T + B /\
  forall x, lrec x (ost o) <= T + B /\ - (2 * (B + 1) * (T + B)) <= slack x o /\ cnt (ost o) x <= T + 2 * B * (T + B).

Lemma drift_fr T o o' : (forall x, fr x o o') -> drift T o -> drift T o'.
Proof.
  intros F (B & T0 & S & H). assert (Q : backtracks (ost o') = backtracks (ost o)) by apply (fr_bt nolit _ _ (F nolit)).
  unfold drift. rewrite Q. split; auto. split; auto. split.
  { unfold size. rewrite (fr_cl nolit _ _ (F nolit)). exact S. }
  intro x. destruct (H x) as (H1 & H2 & H3). destruct (F x). split; [|lia]. unfold lrec. rewrite fr_rec0. exact H1.
Qed.

Lemma drift_choice T o l l' : drift T o ->
  - ((4 * backtracks (ost o) + 3) * (T + backtracks (ost o))) <= cnt (ost o) l - cnt (ost o) l'.
Proof.
  intros (B & T0 & S & H). destruct (H l) as (_ & H2 & _). destruct (H l') as (_ & _ & H3).
  pose proof (phi_0 l o). unfold slack in H2. nia.
Qed.

Lemma drift_conflict T o o' : drift T o -> backtracks (ost o') = backtracks (ost o) + 1 ->
  size (ost o') = size (ost o) + 1 ->
  (forall x, lrec x (ost o') <= lrec x (ost o) + 1 /\
     cnt (ost o) x <= cnt (ost o') x <= cnt (ost o) x + size (ost o') + lrec x (ost o')) -> drift T o'.
Proof.
  intros (B & T0 & S & H) Q S' F. unfold drift. rewrite Q. split; [lia|]. split; [auto|]. split; [lia|].
  intro x. destruct (H x) as (H1 & H2 & H3). destruct (F x) as (F1 & F2). split; [lia|].
  pose proof (phi_0 x o). pose proof (phi_le x o'). unfold slack in *. split; nia.
Qed.

Lemma length_sum L k : (forall n, In n L -> (n < k)%nat) -> Z.of_nat (length L) = sumz (fun n => Z.of_nat (nocc n L)) (seq 0 k).
Proof.
  induction L as [|m L IH]; intro H.
  - simpl. symmetry. transitivity (sumz (fun _ : nat => 0) (seq 0 k)); [apply sumz_ext; reflexivity|].
    induction (seq 0 k); simpl; auto.
  - cbn [length]. rewrite Nat2Z.inj_succ, IH by (intros; apply H; right; auto).
    assert (Q := sumz_one (fun n => Z.of_nat (nocc n (m :: L))) (fun n => Z.of_nat (nocc n L)) m (seq 0 k) (seq_NoDup _ _)).
    lapply Q; clear Q; [intro Q|apply in_seq; specialize (H m (or_introl eq_refl)); lia].
    lapply Q; clear Q; [intro Q|intros n N; rewrite nocc_cons; destruct (Nat.eqb_spec n m); [congruence|auto]].
    cbn beta in Q. rewrite nocc_cons, Nat.eqb_refl in Q. lia.
Qed.
