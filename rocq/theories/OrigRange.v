(** * The first version: the range of its counters *)

From Verif Require Import Spec WideSpec Outcome State TextSpec ModelCounter ModelSearch ModelBuild ModelOrig Base Trail Reduce
  OrigSpec OrigInit OrigCid OrigSolve OrigMono OrigNC OrigBound RangeSpec.
#[local] Open Scope Z_scope.

(** ** Sums *)

Definition zt {A} (f : A -> Z) (l : list A) : Z := fold_right (fun y a => f y + a) 0 l.
Lemma zt_cons {A} (f : A -> Z) x l : zt f (x :: l) = f x + zt f l.
Proof. reflexivity. Qed.
Lemma zt_le {A} (f g : A -> Z) l : (forall y, In y l -> f y <= g y) -> zt f l <= zt g l.
Proof.
  induction l as [|x l IH]; intro H; [cbn; lia|]. rewrite !zt_cons. pose proof (H x (or_introl eq_refl)).
  assert (zt f l <= zt g l) by (apply IH; intros; apply H; right; auto). lia.
Qed.
Lemma zt_nonneg {A} (f : A -> Z) l : (forall y, In y l -> 0 <= f y) -> 0 <= zt f l.
Proof.
  induction l as [|x l IH]; intro H; [cbn; lia|]. rewrite zt_cons. pose proof (H x (or_introl eq_refl)).
  assert (0 <= zt f l) by (apply IH; intros; apply H; right; auto). lia.
Qed.
Lemma zt_in {A} (f : A -> Z) x l : (forall y, In y l -> 0 <= f y) -> In x l -> f x <= zt f l.
Proof.
  induction l as [|y l IH]; intros H I; [destruct I|]. rewrite zt_cons. pose proof (H y (or_introl eq_refl)).
  assert (0 <= zt f l) by (apply zt_nonneg; intros; apply H; right; auto).
  destruct I as [->|I]; [lia|]. assert (f x <= zt f l) by (apply IH; auto; intros; apply H; right; auto). lia.
Qed.
(** One summand changes. *)
Lemma zt_one (f g : Z * Z -> Z) x k l : NoDup l -> In x l -> (forall y, y <> x -> g y <= f y) -> g x <= f x + k -> zt g l <= zt f l + k.
Proof.
  intros ND I H1 H2. induction l as [|y l IH]; [destruct I|]. inversion ND as [|? ? N1 N2]; subst. rewrite !zt_cons.
  destruct I as [->|I].
  - assert (zt g l <= zt f l) by (apply zt_le; intros z Z; apply H1; intros ->; contradiction). lia.
  - assert (y <> x) by (intros ->; contradiction). specialize (H1 y H). specialize (IH N2 I). lia.
Qed.

Lemma flen {A} (f : A -> bool) l : (length (filter f l) <= length l)%nat.
Proof. induction l as [|x l IH]; cbn; auto. destruct (f x); cbn; lia. Qed.

(** ** Weights *)

(** The places at which an atom is entered, and one. *)
Definition weight (R : lit -> list nat) (a : Z * Z) : Z :=
  1 + Z.of_nat (length (R (mkLit (fst a) (snd a) true))) + Z.of_nat (length (R (mkLit (fst a) (snd a) false))).
Definition open_weight (R : lit -> list nat) (A : Z -> Z -> aval) (a : Z * Z) : Z :=
  match A (fst a) (snd a) with Un => weight R a | _ => 0 end.
Definition total (t : trail) (R : lit -> list nat) : Z := zt (weight R) (atoms_from t 0).

Lemma weight_pos R a : 1 <= weight R a.
Proof. unfold weight. lia. Qed.
Lemma total_nonneg t R : 0 <= total t R.
Proof. apply zt_nonneg. intros y _. pose proof (weight_pos R y). lia. Qed.
Lemma ok_in t l : lit_ok t l = true -> In (lvar l, lval l) (atoms_from t 0).
Proof. unfold lit_ok, in_range. intro H. apply in_atoms_from. lia. Qed.
Lemma total_in t R l : lit_ok t l = true -> weight R (lvar l, lval l) <= total t R.
Proof. intro H. apply (zt_in (weight R)); [|apply ok_in; auto]. intros y _. pose proof (weight_pos R y). lia. Qed.
Lemma length_weight R l : 1 + Z.of_nat (length (R l)) <= weight R (lvar l, lval l).
Proof. unfold weight. destruct l as [v d []]; cbn [fst snd lvar lval]; lia. Qed.

Lemma total_add t R l n : total t (updl R l (n :: R l)) <= total t R + 1.
Proof.
  assert (OTH : forall y, y <> (lvar l, lval l) -> weight (updl R l (n :: R l)) y <= weight R y).
  { intros (v & d) N. unfold weight, updl. cbn [fst snd].
    destruct (lit_eqb_spec (mkLit v d true) l) as [<-|]; [exfalso; apply N; reflexivity|].
    destruct (lit_eqb_spec (mkLit v d false) l) as [<-|]; [exfalso; apply N; reflexivity|]. lia. }
  destruct (lit_ok t l) eqn:H.
  - apply (zt_one (weight R) _ (lvar l, lval l)); [apply nodup_atoms|apply ok_in; auto|exact OTH|].
    unfold weight, updl. cbn [fst snd].
    destruct (lit_eqb_spec (mkLit (lvar l) (lval l) true) l) as [E1|N1], (lit_eqb_spec (mkLit (lvar l) (lval l) false) l) as [E2|N2].
    + congruence.
    + rewrite E1. cbn [length]. lia.
    + rewrite E2. cbn [length]. lia.
    + lia.
  - assert (total t (updl R l (n :: R l)) <= total t R); [|lia]. apply zt_le. intros y I. apply OTH. intros ->.
    apply in_atoms_from in I. unfold lit_ok, in_range in H. lia.
Qed.

(** ** The measure *)

Section Measure.
Variables (t0 : trail) (R : lit -> list nat) (m : nat).
Definition W : Z := total t0 R.

Definition fine (b : Z) (s : state) : Prop :=
  NV (tr s) = NV t0 /\ DOM (tr s) = DOM t0 /\ rec s = R /\ length (cl s) = m /\ backtracks s = b /\
  0 <= decisions s /\ 0 <= units s /\ 0 <= entails s.
Definition done (s : state) : Z := decisions s + entails s + units s.
Definition cost (s : state) : Z := done s + Z.of_nat (length (ulist s)) + zt (open_weight R (ASG (tr s))) (atoms_from t0 0).
Definition P (b c : Z) (o : orig) : Prop := fine b (ost o) /\ cost (ost o) <= c.

Lemma open_le A : zt (open_weight R A) (atoms_from t0 0) <= W.
Proof. apply zt_le. intros (v & d) _. unfold open_weight. cbn [fst snd]. pose proof (weight_pos R (v, d)). destruct (A v d); lia. Qed.
Lemma open_nonneg A : 0 <= zt (open_weight R A) (atoms_from t0 0).
Proof. apply zt_nonneg. intros (v & d) _. unfold open_weight. cbn [fst snd]. pose proof (weight_pos R (v, d)). destruct (A v d); lia. Qed.
Lemma fine_ok b s l : fine b s -> lit_ok (tr s) l = true -> lit_ok t0 l = true.
Proof. intros (N & D & _). unfold lit_ok, in_range. rewrite N, D. auto. Qed.

Definition still (o o' : orig) : Prop := tr (ost o') = tr (ost o).

Lemma P_satisfy b c o l : P b c o -> pres (fun o' => P b c o' /\ still o o') (o_satisfy o l).
Proof.
  intro H. unfold o_satisfy. apply pres_any. intros _.
  apply (pres_fold (fun o' => P b c o' /\ still o o')); [|split; [exact H|reflexivity]]. clear H. intros o1 n H.
  unfold o_sat_step. apply pres_any. intro k. destruct (ocsat o1 n); [exact H|].
  apply (pres_bind (fun s => (fine b s /\ cost s <= c) /\ tr s = tr (ost o))).
  - apply (pres_fold (fun s => (fine b s /\ cost s <= c) /\ tr s = tr (ost o))); [|exact H].
    intros s x Hs. unfold o_dec. apply pres_any. intros _. destruct (lit_un (tr s) x); exact Hs.
  - intros s Hs. exact Hs.
Qed.

Lemma P_remove_steps b l : forall L c o, P b c o ->
  pres (fun o' => P b (c + Z.of_nat (length L)) o' /\ still o o') (foldM (o_remove_step l) L o).
Proof.
  induction L as [|n L IH]; intros c o H; cbn [foldM].
  - split; [|reflexivity]. cbn. rewrite Z.add_0_r. exact H.
  - assert (S1 : pres (fun o' => P b (c + 1) o' /\ still o o') (o_remove_step l o n)).
    { unfold o_remove_step. cbv zeta. apply pres_any. intros _. destruct H as (H1 & H2).
      destruct (ocsat o n); [split; [split; [exact H1|lia]|reflexivity]|].
      destruct (State.num (ost o) n - 1 =? 1), (State.num (ost o) n - 1 =? 0);
        (split; [split; [exact H1|unfold cost, done in *; cbn in *; lia]|reflexivity]). }
    apply (pres_bind _ _ _ _ S1). intros o1 (H1 & H2). pose proof (IH _ _ H1) as I.
    destruct (foldM (o_remove_step l) L o1) as [o2| |]; try exact I. cbn [pres] in *. destruct I as (I1 & I2).
    split; [|unfold still in *; congruence]. replace (c + Z.of_nat (length (n :: L))) with (c + 1 + Z.of_nat (length L)) by (cbn [length]; lia). exact I1.
Qed.

Definition delta (o : orig) (v d : Z) : Z := match ASG (tr (ost o)) v d with Un => -1 | _ => weight R (v, d) end.

Lemma P_assign b c o v d a : a <> Un -> P b c o -> pres (P b (c + delta o v d)) (o_assign o v d a).
Proof.
  intros NA H. unfold o_assign. set (l := mkLit v d _). unfold o_satisfy, chk. destruct (lit_ok (tr (ost o)) l) eqn:OK; [|exact I].
  cbn [bind]. pose proof (P_satisfy b c o l H) as S1. unfold o_satisfy, chk in S1. rewrite OK in S1. cbn [bind] in S1.
  apply (pres_bind _ _ _ _ S1). intros o1 (H1 & E1). unfold o_remove. unfold chk. destruct (lit_ok (tr (ost o1)) (neg l)); [|exact I]. cbn [bind].
  assert (ER : rec (ost o1) = R) by apply H1. rewrite ER.
  apply (pres_bind _ _ _ _ (P_remove_steps b (neg l) (R (neg l)) c o1 H1)). intros o2 ((F2 & C2) & E2).
  assert (LW : 1 + Z.of_nat (length (R (neg l))) <= weight R (v, d)) by (apply (length_weight R (neg l))).
  assert (ET : tr (ost o2) = tr (ost o)) by (unfold still in *; congruence).
  assert (I0 : In (v, d) (atoms_from t0 0)) by (apply (ok_in t0 l); apply (fine_ok b (ost o)); [apply H|exact OK]).
  split; [exact F2|]. unfold cost in *. cbn [on ost set_atom set_tr tr ASG ulist]. change (done (set_atom (ost o2) v d a (level (ost o2)) (uclause (ost o2)))) with (done (ost o2)).
  assert (Z1 : zt (open_weight R (upd2 (ASG (tr (ost o2))) v d a)) (atoms_from t0 0) <=
               zt (open_weight R (ASG (tr (ost o2)))) (atoms_from t0 0) + match ASG (tr (ost o)) v d with Un => - weight R (v, d) | _ => 0 end).
  { apply (zt_one _ _ (v, d)); [apply nodup_atoms|exact I0| |].
    - intros (w & i) N. unfold open_weight, upd2. cbn [fst snd]. destruct (Z.eqb_spec w v) as [->|]; cbn [andb]; [|lia].
      destruct (Z.eqb_spec i d) as [->|]; [congruence|lia].
    - unfold open_weight, upd2. cbn [fst snd]. rewrite !Z.eqb_refl, ET. cbn [andb]. destruct a; [congruence| |]; destruct (ASG (tr (ost o)) v d); pose proof (weight_pos R (v, d)); lia. }
  unfold delta. destruct (ASG (tr (ost o)) v d); lia.
Qed.

Lemma P_weak b c c' o : c <= c' -> P b c o -> P b c' o.
Proof. intros L (F & C). split; auto. lia. Qed.

Lemma P_exclude b c v o i : P b c o -> pres (P b c) (o_exclude v o i).
Proof.
  intro H. unfold o_exclude. destruct (conflict (ost o)); [exact H|]. destruct (ASG (tr (ost o)) v i) eqn:E; try exact H.
  pose proof (P_assign b c o v i Neg ltac:(discriminate) H) as A. unfold delta in A. rewrite E in A.
  destruct (o_assign o v i Neg); auto. cbn [pres] in *. apply (P_weak b (c + -1)); auto. lia.
Qed.

Lemma P_reduce_pos b c o v d : P b c o -> pres (P b (c + delta o v d)) (o_reduce_pos o v d).
Proof.
  intro H. unfold o_reduce_pos. apply pres_any. intros _.
  apply (pres_bind _ _ _ _ (P_assign b c o v d Pos ltac:(discriminate) H)). intros o1 H1. cbv zeta.
  apply (pres_bind (P b (c + delta o v d))).
  - apply (pres_fold (P b (c + delta o v d))); [intros; apply P_exclude; auto|]. exact H1.
  - intros o2 H2. apply (pres_fold (P b (c + delta o v d))); [intros; apply P_exclude; auto|]. exact H2.
Qed.

Lemma P_reduce b c o l : P b c o -> pres (P b (c + delta o (lvar l) (lval l))) (o_reduce o l).
Proof.
  intro H. unfold o_reduce. destruct (leq l); [apply P_reduce_pos; auto|]. set (v := lvar l). set (d := lval l).
  unfold o_reduce_neg. apply pres_any. intros _. apply (pres_bind _ _ _ _ (P_assign b c o v d Neg ltac:(discriminate) H)). intros o1 H1. cbv zeta.
  set (c1 := c + delta o v d) in *. clearbody c1.
  set (o2 := on o1 (push_dst (ost o1) (mkLit v d false))). assert (H2 : P b c1 o2) by exact H1. clearbody o2.
  apply (pres_bind (fun q => P b c1 (fst q) /\ match snd q with Some e => ASG (tr (ost (fst q))) v e = Un | None => True end)).
  - unfold o_check_entail. apply pres_any. intro e. destruct (osat o2 v); [split; [exact H2|exact I]|].
    destruct (check_entail (tr (ost o2)) v) as [x|] eqn:E; [|split; [exact H2|exact I]]. split; [exact H2|]. apply (check_entail_some _ _ _ E).
  - intros (o3 & [x|]) (H3 & E3); [|exact H3]. cbn [fst snd] in *.
    assert (H4 : P b (c1 + 1) (on o3 (set_entails (ost o3) (entails (ost o3) + 1)))).
    { destruct H3 as ((F1 & F2 & F3 & F4 & F5 & F6 & F7 & F8) & C3). split; [|unfold cost, done in *; cbn in *; lia].
      repeat (split; [assumption|]). cbn. lia. }
    pose proof (P_reduce_pos _ _ _ v x H4) as Q. unfold delta in Q.
    change (ASG (tr (ost (on o3 (set_entails (ost o3) (entails (ost o3) + 1))))) v x) with (ASG (tr (ost o3)) v x) in Q. rewrite E3 in Q.
    replace (c1 + 1 + -1) with c1 in Q by lia. exact Q.
Qed.

Lemma P_reduce_any b c o l : P b c o -> pres (P b (c + W)) (o_reduce o l).
Proof.
  intro H. destruct (lit_ok (tr (ost o)) l) eqn:OK.
  - pose proof (P_reduce b c o l H) as Q. destruct (o_reduce o l); auto. cbn [pres] in *. apply (P_weak b (c + delta o (lvar l) (lval l))); auto.
    unfold delta. pose proof (total_in t0 R l (fine_ok _ _ _ (proj1 H) OK)). fold W in *. pose proof (weight_pos R (lvar l, lval l)).
    destruct (ASG (tr (ost o)) (lvar l) (lval l)); lia.
  - unfold o_reduce, o_reduce_pos, o_reduce_neg, chk. unfold lit_ok in OK. unfold lit_ok. cbn [lvar lval]. rewrite OK. destruct (leq l); exact I.
Qed.

Lemma P_reduce_un b c o l : P b c o -> ASG (tr (ost o)) (lvar l) (lval l) = Un -> pres (P b (c - 1)) (o_reduce o l).
Proof. intros H E. pose proof (P_reduce b c o l H) as Q. unfold delta in Q. rewrite E in Q. exact Q. Qed.

Lemma first_open t : forall ls l, first_un t ls = Ok (Some l) -> ASG t (lvar l) (lval l) = Un.
Proof.
  induction ls as [|x ls IH]; intros l H; cbn [first_un] in H; [discriminate|]. apply bind_ok in H. destruct H as (u & _ & H).
  unfold lit_un in H. destruct (ASG t (lvar x) (lval x)) eqn:E; [|auto|auto]. injection H as <-. exact E.
Qed.

Lemma P_propagate_loop b c fuel : forall o, P b c o -> pres (P b c) (o_propagate_loop fuel o).
Proof.
  induction fuel as [|f IH]; intros o H; [exact I|]. cbn [o_propagate_loop]. cbv zeta.
  destruct (conflict (ost o)); [exact H|]. destruct (ulist (ost o)) as [|n rest] eqn:U; [exact H|].
  match goal with |- context [getcl ?s n] => set (s1 := s) in * end.
  assert (H1 : P b c (on o s1)).
  { destruct H as ((F1 & F2 & F3 & F4 & F5 & F6 & F7 & F8) & C3). split.
    - repeat (split; [assumption|]). split; [cbn; lia|exact F8].
    - unfold cost, done in *. rewrite U in C3. cbn in *. lia. }
  destruct (getcl s1 n) as [k| |]; cbn [bind]; try exact I.
  destruct (ocsat o n); [apply IH; exact H1|]. destruct (first_un (tr s1) k) as [[l|]| |] eqn:E; cbn [bind]; try exact I; [|apply IH; exact H1].
  apply first_open in E. pose proof (P_reduce_un b c (on o s1) l H1 E) as Q. apply (pres_bind _ _ _ _ Q). intros o2 H2. apply IH. apply (P_weak b (c - 1)); auto. lia.
Qed.
Lemma P_propagate b c fuel o : P b c o -> pres (P b c) (o_propagate fuel o).
Proof.
  intro H. unfold o_propagate. apply (pres_bind _ _ _ _ (P_propagate_loop b c fuel o H)). intros o1 (F & C).
  destruct (conflict (ost o1)); split; auto. unfold cost, done in *. cbn in *. lia.
Qed.
Lemma P_units b c fuel o : P b c o -> pres (P b c) (o_units fuel o).
Proof. intro H. unfold o_units. destruct (ulist (ost o)); [exact H|apply P_propagate; exact H]. Qed.

Lemma choose_un o L : forall b0, (forall l, snd b0 = Some l -> ASG (tr (ost o)) (lvar l) (lval l) = Un) ->
  forall l, snd (fold_left (o_choose_step o) L b0) = Some l -> ASG (tr (ost o)) (lvar l) (lval l) = Un.
Proof.
  induction L as [|(v & d) L IH]; intros b0 H l E; [auto|]. cbn [fold_left] in E. apply (IH _) in E; auto.
  intros x Hx. unfold o_choose_step in Hx. destruct (osat o v); auto. destruct (ASG (tr (ost o)) v d) eqn:A; auto.
  destruct (fst b0 <? _); auto. injection Hx as <-. exact A.
Qed.

Lemma P_decide b c o l : P b c o -> ASG (tr (ost o)) (lvar l) (lval l) = Un -> pres (P b c) (o_decide o l).
Proof.
  intros ((F1 & F2 & F3 & F4 & F5 & F6 & F7 & F8) & C) E. unfold o_decide. cbv zeta.
  match goal with |- context [o_reduce ?x l] => assert (H1 : P b (c + 1) x) end.
  { split; [|unfold cost, done in *; cbn in *; lia]. repeat (split; [assumption|]). split; [cbn; lia|]. split; assumption. }
  match goal with |- context [o_reduce ?x l] => pose proof (P_reduce_un b (c + 1) x l H1 E) as Q end.
  replace (c + 1 - 1) with c in Q by lia. exact Q.
Qed.

(** ** Undoing *)

Definition Q (b x y : Z) (o : orig) : Prop := fine b (ost o) /\ done (ost o) <= x /\ Z.of_nat (length (ulist (ost o))) <= y.

Lemma Q_add b x y o l : Q b x y o -> pres (Q b x y) (o_add o l).
Proof.
  intro H. unfold o_add. apply pres_any. intros _. apply (pres_fold (Q b x y)); auto. clear H. intros o1 n H.
  unfold o_add_step. cbv zeta. apply pres_any. intros _. destruct (ocsat o1 n); exact H.
Qed.
Lemma Q_unsatisfy b x y lev o l : Q b x y o -> pres (Q b x y) (o_unsatisfy lev o l).
Proof.
  intro H. unfold o_unsatisfy. apply pres_any. intros _. apply (pres_fold (Q b x y)); auto. clear H. intros o1 n H.
  unfold o_unsat_step. cbv zeta. apply pres_any. intros k. destruct (lev <? clev (ost o1) n); [|exact H].
  apply (pres_bind (fun s => fine b s /\ done s <= x /\ Z.of_nat (length (ulist s)) <= y)).
  - apply (pres_fold (fun s => fine b s /\ done s <= x /\ Z.of_nat (length (ulist s)) <= y)); [|exact H]. intros s z Hs. unfold o_inc.
    apply pres_any. intros _. destruct ((lev <? _) || _); exact Hs.
  - intros s Hs. exact Hs.
Qed.
Lemma Q_undo b x y o lev : Q b x y o -> pres (Q b x y) (o_undo o lev).
Proof.
  intro H. unfold o_undo. apply (pres_bind (Q b x y)).
  { apply (pres_fold (Q b x y)); auto. intros o1 (v & i) H1. unfold o_undo1.
    destruct (lev <? _); [|exact H1]. destruct (ASG (tr (ost o1)) v i); apply Q_add; auto. }
  intros o1 H1. apply (pres_bind (Q b x y)).
  { apply (pres_fold (Q b x y)); auto. intros o2 v H2. unfold o_undo_var. apply (pres_bind (Q b x y)).
    - apply (pres_fold (Q b x y)); auto. intros o3 i H3. unfold o_undo2. destruct (lev <? _); [|exact H3].
      apply (pres_bind (Q b x y)).
      + destruct (ASG (tr (ost o3)) v i); apply Q_unsatisfy; auto.
      + intros o4 H4. exact H4.
    - intros o3 H3. destruct (lev <? ovlev o3 v); exact H3. }
  intros o2 H2. unfold prune_dst. destruct (forallb _ _); simpl; auto.
Qed.
Lemma Q_P b x y o : Q b x y o -> P b (x + y + W) o.
Proof. intros (F & D & U). split; auto. unfold cost. pose proof (open_le (ASG (tr (ost o)))). lia. Qed.

(** ** The recursive search *)

Lemma chrono_cost clk fuel : forall b c o lev, P b c o ->
  pres (fun q => exists b', b <= b' /\ P b' (c + 2 * W * (b' - b) - match fst q with UNSAT => W | _ => 0 end) (snd q)) (o_chrono fuel clk o lev).
Proof.
  pose proof (total_nonneg t0 R) as WN. fold W in WN.
  induction fuel as [|f IH]; intros b c o lev H; [exact I|]. cbn [o_chrono].
  assert (STOP : forall v o', v <> UNSAT -> P b c o' -> exists b', b <= b' /\ P b' (c + 2 * W * (b' - b) - match v with UNSAT => W | _ => 0 end) o').
  { intros v o' NV' H'. exists b. split; [lia|]. replace (c + 2 * W * (b - b) - match v with UNSAT => W | _ => 0 end) with c by (destruct v; try congruence; nia). exact H'. }
  set (o1 := on o (set_level (ost o) lev)). assert (K1 : P b c o1) by exact H. clearbody o1.
  destruct (o_check_sat o1); [apply STOP; auto; discriminate|].
  unfold o_time at 1. cbn [check_time]. set (o2 := on o1 (set_tick (ost o1) (S (tick (ost o1))))). assert (K2 : P b c o2) by exact K1. clearbody o2.
  destruct (clk _); [apply STOP; auto; discriminate|].
  pose proof (P_units b c (S f) o2 K2) as KU. destruct (o_units (S f) o2) as [o3| |]; cbn [bind]; try exact I. cbn [pres] in KU.
  destruct (o_check_sat o3); [apply STOP; auto; discriminate|].
  unfold o_time. cbn [check_time]. set (o4 := on o3 (set_tick (ost o3) (S (tick (ost o3))))). assert (K4 : P b c o4) by exact KU. clearbody o4.
  destruct (clk _); [apply STOP; auto; discriminate|].
  destruct (conflict (ost o4)).
  { cbv zeta. match goal with |- context [o_undo (on o4 ?s) ?l] => assert (KC : Q (b + 1) (done (ost o4)) (Z.of_nat (length (ulist (ost o4)))) (on o4 s)) end.
    { destruct K4 as ((F1 & F2 & F3 & F4 & F5 & F6) & _). split; [|split; [apply Z.le_refl|apply Z.le_refl]].
      do 4 (split; [assumption|]). split; [cbn; lia|exact F6]. }
    match goal with |- context [o_undo (on o4 ?s) ?l] => pose proof (Q_undo _ _ _ (on o4 s) l KC) as KV; destruct (o_undo (on o4 s) l) as [o5| |]; cbn [bind]; try exact I end.
    cbn [pres] in *. apply Q_P in KV. exists (b + 1). split; [lia|]. cbn [fst snd].
    apply (P_weak _ (done (ost o4) + Z.of_nat (length (ulist (ost o4))) + W)); [|exact KV].
    destruct K4 as (_ & C4). unfold cost in C4. pose proof (open_nonneg (ASG (tr (ost o4)))). nia. }
  unfold o_choose. cbv beta iota zeta. set (o5 := on o4 (set_uclause (ost o4) RDec)). assert (K5 : P b c o5) by exact K4.
  destruct (snd (fold_left _ _ _)) as [l|] eqn:EC; [|apply STOP; [discriminate|exact K5]].
  assert (UN : ASG (tr (ost o5)) (lvar l) (lval l) = Un) by (refine (choose_un o4 _ _ _ l EC); intros ? X; discriminate X). clearbody o5.
  pose proof (P_decide b c o5 l K5 UN) as KD. destruct (o_decide o5 l) as [o6| |]; cbn [bind]; try exact I. cbn [pres] in KD.
  pose proof (IH b c o6 (level (ost o6)) KD) as I1. destruct (o_chrono f clk o6 (level (ost o6))) as [(v & o7)| |]; cbn [bind]; try exact I.
  cbn [pres fst snd] in I1. destruct v; [exact I1|exact I1|].
  destruct (level (ost o7) =? 0); [exact I1|]. destruct I1 as (b1 & B1 & K7).
  pose proof (P_reduce_any _ _ o7 (neg l) K7) as KR. destruct (o_reduce o7 (neg l)) as [o8| |]; cbn [bind]; try exact I. cbn [pres] in KR.
  pose proof (IH _ _ o8 (level (ost o8)) KR) as I2. destruct (o_chrono f clk o8 (level (ost o8))) as [(v & o9)| |]; try exact I. cbn [pres fst snd] in *.
  destruct I2 as (b2 & B2 & K9). exists b2. split; [lia|]. refine (P_weak _ _ _ _ _ K9). destruct v; nia.
Qed.

End Measure.

(** ** The loop *)

Definition J (t0 : trail) (K0 W0 : Z) (o : orig) : Prop :=
  exists R m b, P t0 R m b ((b + 1) * (K0 + W0 + b)) o /\ total t0 R <= W0 + b /\ Z.of_nat m <= K0 + b /\ 0 <= b.

Lemma conflict_J t0 K0 W0 o : J t0 K0 W0 o -> pres (J t0 K0 W0) (o_conflict o).
Proof.
  intros (R & m & b & ((F1 & F2 & F3 & F4 & F5 & F6) & C) & T & M & B). unfold o_conflict, o_analyze. cbv zeta.
  destruct (o_walk_down _ _ _ _) as [i| |]; cbn [bind]; try exact I.
  destruct (o_walk_up _ _ i) as [l| |]; cbn [bind]; try exact I.
  set (n := length (cl (ost o))) in *. set (R' := updl R (neg l) (n :: R (neg l))).
  match goal with |- context [o_undo ?x 0] => assert (K : Q t0 R' (S m) (b + 1) (done (ost o)) (Z.of_nat (length (ulist (ost o)))) x) end.
  { split; [|split; apply Z.le_refl]. split; [exact F1|]. split; [exact F2|]. split; [cbn; rewrite F3; reflexivity|].
    split; [cbn; rewrite app_length; cbn; lia|]. split; [cbn; lia|exact F6]. }
  match goal with |- context [o_undo ?x 0] => pose proof (Q_undo _ _ _ _ _ _ x 0 K) as KU; destruct (o_undo x 0) as [o1| |]; cbn [bind]; try exact I end.
  cbn [pres] in *. destruct KU as (F & D & _). exists R', (S m), (b + 1).
  assert (T' : total t0 R' <= W0 + (b + 1)) by (pose proof (total_add t0 R (neg l) n); unfold R'; lia).
  split; [|split; [exact T'|lia]].
  assert (K2 : Q t0 R' (S m) (b + 1) (done (ost o)) (Z.of_nat (S m)) (o_check_unit o1)).
  { split; [exact F|]. split; [exact D|]. unfold o_check_unit. cbn [ost on ulist set_ulist].
    apply inj_le. etransitivity; [apply flen|]. rewrite seq_length. destruct F as (_ & _ & _ & F & _). rewrite F. apply le_n. }
  apply Q_P in K2. apply (P_weak _ _ _ _ (done (ost o) + Z.of_nat (S m) + total t0 R')); [|exact K2].
  unfold cost in C. pose proof (open_nonneg t0 R (ASG (tr (ost o)))). lia.
Qed.

Lemma loop_J t0 K0 W0 clk fuel : forall o, J t0 K0 W0 o -> pres (fun q => J t0 K0 W0 (snd q)) (o_loop fuel clk o).
Proof.
  induction fuel as [|f IH]; intros o H; [exact I|]. cbn [o_loop].
  destruct (o_check_sat o); [exact H|].
  unfold o_time at 1. cbn [check_time]. set (o1 := on o (set_tick (ost o) (S (tick (ost o))))). assert (K1 : J t0 K0 W0 o1) by exact H. clearbody o1.
  destruct (clk _); [exact K1|]. destruct (ulist (ost o1)) as [|n rest].
  - destruct (conflict (ost o1)).
    + destruct (level (ost o1) =? 0); [exact K1|]. pose proof (conflict_J _ _ _ _ K1) as KC. destruct (o_conflict o1) as [o2| |]; cbn [bind]; try exact I. apply IH; exact KC.
    + unfold o_choose. cbv beta iota zeta. set (o5 := on o1 (set_uclause (ost o1) RDec)). assert (K5 : J t0 K0 W0 o5) by exact K1.
      destruct (snd (fold_left _ _ _)) as [l|] eqn:EC; [|apply IH; exact K5].
      assert (UN : ASG (tr (ost o5)) (lvar l) (lval l) = Un) by (refine (choose_un o1 _ _ _ l EC); intros ? X; discriminate X). clearbody o5.
      destruct K5 as (R & m & b & K5 & T). pose proof (P_decide _ _ _ _ _ _ l K5 UN) as KD.
      destruct (o_decide o5 l) as [o6| |]; cbn [bind]; try exact I. apply IH. exists R, m, b. split; [exact KD|exact T].
  - assert (KU : pres (J t0 K0 W0) (o_propagate (S f) o1)).
    { destruct K1 as (R & m & b & K1 & T). pose proof (P_propagate _ _ _ _ _ (S f) _ K1) as KP. destruct (o_propagate (S f) o1); auto.
      exists R, m, b. split; [exact KP|exact T]. }
    destruct (o_propagate (S f) o1) as [o3| |]; cbn [bind]; try exact I. cbn [pres] in KU.
    destruct (o_check_sat o3); [exact KU|]. unfold o_time. cbn [check_time]. destruct (clk _); [exact KU|]. apply IH. exact KU.
Qed.

(** ** The start *)

Definition grown (t : trail) (n : Z) (o : orig) : Prop :=
  tr (ost o) = t /\ total t (rec (ost o)) <= Z.of_nat (length (atoms_from t 0)) + n.

Lemma grow_lits t c : forall ls n o, grown t n o -> pres (grown t (n + Z.of_nat (length ls))) (foldM (o_add_lit c) ls o).
Proof.
  induction ls as [|l ls IH]; intros n o H; cbn [foldM].
  - cbn. rewrite Z.add_0_r. exact H.
  - unfold o_add_lit at 1. unfold chk. destruct (lit_ok _ _); [|exact I]. cbn [bind].
    replace (n + Z.of_nat (length (l :: ls))) with (n + 1 + Z.of_nat (length ls)) by (cbn [length]; lia). apply IH.
    destruct H as (H1 & H2). split; [exact H1|]. cbn [ost on rec set_rec set_cnt cnt]. pose proof (total_add t (rec (ost o)) l c). lia.
Qed.
Lemma grow_items t : forall cs n o, grown t n o ->
  pres (grown t (n + Z.of_nat (list_sum (map (@length lit) cs)))) (foldM o_add_item (map ICls cs) o).
Proof.
  induction cs as [|k cs IH]; intros n o H.
  - cbn. rewrite Z.add_0_r. exact H.
  - cbn [map foldM o_add_item]. cbv zeta. pose proof (grow_lits t (length (cl (ost o))) k n o H) as G.
    destruct (foldM (o_add_lit _) k o) as [o1| |]; cbn [bind]; try exact I. cbn [pres] in G.
    replace (n + Z.of_nat (list_sum (length k :: map (@length lit) cs))) with (n + Z.of_nat (length k) + Z.of_nat (list_sum (map (@length lit) cs)))
      by (unfold list_sum; cbn [fold_right]; lia).
    apply IH. exact G.
Qed.

Lemma zt_const {A} (f : A -> Z) l : (forall y, f y = 1) -> zt f l = Z.of_nat (length l).
Proof. intro H. induction l as [|x l IH]; auto. rewrite zt_cons, H, IH. cbn [length]. lia. Qed.

Lemma atoms_zero t : 0 <= NV t -> DOM t 0 = 0 -> atoms_from t 0 = atoms_from t 1.
Proof.
  intros N D. unfold atoms_from, zrange. replace (Z.to_nat (NV t + 1 - 0)) with (S (Z.to_nat (NV t + 1 - 1))) by lia.
  cbn [seq map flat_map]. rewrite Z.add_0_r, D. cbn [Z.to_nat seq map app]. rewrite <- seq_shift, map_map. f_equal. apply map_ext. intro; lia.
Qed.

Lemma start_cost e p o : wf p -> o_build e (items_of p) = Ok o ->
  let t := tr (ost o) in let R := rec (ost o) in let m := length (clauses p) in
  total t R <= atoms p + literals p /\ P t R m 0 (Z.of_nat m + total t R) (o_check_unit o).
Proof.
  intros WF E t R m. pose proof (wf_usable p WF) as U. destruct (o_build_ok e p U) as (t1 & o' & E' & OT & OB).
  assert (o' = o) by congruence. subst o'. clear E'.
  assert (T1 : tr (ost o) = t1) by apply OB. unfold t. rewrite T1. split.
  - unfold o_build, items_of in E. rewrite foldM_app in E. destruct U as (U1 & _).
    destruct (o_build_doms e (doms p) U1) as (t2 & E2 & N2 & D2 & _). rewrite E2 in E. cbn [bind] in E.
    assert (G0 : grown t2 0 (on (o_init e) (set_tr (ost (o_init e)) t2))).
    { split; [reflexivity|]. rewrite Z.add_0_r. apply Z.eq_le_incl. apply zt_const. intro; reflexivity. }
    pose proof (grow_items t2 (clauses p) 0 _ G0) as G. rewrite E in G. cbn [pres] in G. destruct G as (G1 & G2).
    assert (ET : t2 = t1) by congruence. clear G0 E2. rewrite ET in *. rewrite atoms_zero in G2.
    + destruct OT as (O1 & O2 & _). rewrite (atoms_len p WF t1 O1 O2) in G2. unfold literals, R. lia.
    + rewrite N2. lia.
    + rewrite D2. reflexivity.
  - destruct OB as [b0 b1 b2 b3 b4 b5 b6 b7 (c1 & c2 & c3 & c4 & c5 & c6 & c7 & c8 & c9 & c10 & c11)].
    apply (P_weak _ _ _ _ (0 + Z.of_nat m + total t1 R)); [lia|]. apply Q_P. unfold Q, fine, done, o_check_unit.
    cbn [ost on tr set_ulist rec cl backtracks decisions units entails ulist]. rewrite c7, c8, c9, c10, T1, b2.
    split; [repeat (split; [reflexivity|]); lia|]. split; [lia|]. apply inj_le. etransitivity; [apply flen|]. rewrite seq_length. apply le_n.
Qed.

(** ** The report *)

Lemma finish_fields v o rep : o_finish (v, o) = Ok rep ->
  or_decisions rep = decisions (ost o) /\ or_units rep = units (ost o) /\ or_entails rep = entails (ost o) /\ or_backtracks rep = backtracks (ost o).
Proof.
  unfold o_finish. destruct v; intro H; [apply bind_ok in H; destruct H as (b & _ & H)| |]; injection H as <-; repeat split.
Qed.

Lemma P_report t R m b c o : P t R m b c o -> backtracks (ost o) = b /\ 0 <= decisions (ost o) /\ 0 <= units (ost o) /\ 0 <= entails (ost o) /\ decisions (ost o) + units (ost o) + entails (ost o) <= c.
Proof.
  intros ((_ & _ & _ & _ & F5 & F6 & F7 & F8) & C). repeat (split; [assumption|]). unfold cost, done in C. pose proof (open_nonneg t R (ASG (tr (ost o)))). lia.
Qed.

Lemma chrono_range fuel e clk p rep : wf p -> o_solve fuel Chrono e clk p = Ok rep ->
  0 <= or_decisions rep /\ 0 <= or_units rep /\ 0 <= or_entails rep /\
  or_decisions rep + or_units rep + or_entails rep <=
    Z.of_nat (length (clauses p)) + (2 * or_backtracks rep + 1) * (atoms p + literals p).
Proof.
  intros WF H. unfold o_solve in H. apply bind_ok in H. destruct H as (o & EB & H). apply bind_ok in H. destruct H as ((v & o1) & ES & H).
  destruct (start_cost e p o WF EB) as (T & S0). pose proof (chrono_cost _ _ _ clk fuel 0 _ _ 0 S0) as C.
  unfold o_search in ES. rewrite ES in C. cbn [pres fst snd] in C. destruct C as (b & B & C).
  destruct (finish_fields _ _ _ H) as (-> & -> & -> & ->). apply P_report in C. destruct C as (-> & C1 & C2 & C3 & C4).
  repeat (split; [assumption|]). pose proof (total_nonneg (tr (ost o)) (rec (ost o))). unfold W in C4. destruct v; nia.
Qed.

Lemma loop_range fuel e clk p rep : wf p -> o_solve fuel NonChrono e clk p = Ok rep ->
  0 <= or_decisions rep /\ 0 <= or_units rep /\ 0 <= or_entails rep /\
  or_decisions rep + or_units rep + or_entails rep <=
    (or_backtracks rep + 1) * (Z.of_nat (length (clauses p)) + atoms p + literals p + or_backtracks rep).
Proof.
  intros WF H. unfold o_solve in H. apply bind_ok in H. destruct H as (o & EB & H). apply bind_ok in H. destruct H as ((v & o1) & ES & H).
  destruct (start_cost e p o WF EB) as (T & S0). unfold o_search in ES.
  assert (J0 : J (tr (ost o)) (Z.of_nat (length (clauses p))) (atoms p + literals p) (on (o_check_unit o) (set_level (ost (o_check_unit o)) 0))).
  { exists (rec (ost o)), (length (clauses p)), 0. split; [|lia]. apply (P_weak _ _ _ _ (Z.of_nat (length (clauses p)) + total (tr (ost o)) (rec (ost o)))); [lia|exact S0]. }
  pose proof (loop_J _ _ _ clk fuel _ J0) as C. rewrite ES in C. cbn [pres snd] in C. destruct C as (R & m & b & C & _).
  destruct (finish_fields _ _ _ H) as (-> & -> & -> & ->). apply P_report in C. destruct C as (-> & C1 & C2 & C3 & C4).
  repeat (split; [assumption|]). nia.
Qed.

Lemma atoms_nonneg p : wf p -> 0 <= atoms p.
Proof.
  intros (W1 & _). unfold atoms. assert (G : forall d, In d (doms p) -> 0 <= d) by (intros d I; specialize (W1 d I); lia). revert G. clear.
  induction (doms p) as [|d L IH]; intro G; cbn; [lia|]. pose proof (G d (or_introl eq_refl)). assert (0 <= fold_right Z.add 0 L) by (apply IH; intros; apply G; right; auto). lia.
Qed.

Lemma loop_int fuel e clk p rep : wf p -> o_solve fuel NonChrono e clk p = Ok rep ->
  (atoms p + 1) * (Z.of_nat (length (clauses p)) + 2 * atoms p + literals p + 1) <= int_max ->
  forall x, In x [or_decisions rep; or_units rep; or_entails rep; or_backtracks rep; or_clauses rep] -> 0 <= x <= int_max.
Proof.
  intros WF H L x I. pose proof (loop_range fuel e clk p rep WF H) as (D & U & E & S).
  destruct (nc_other fuel e clk p rep WF H) as (_ & _ & _ & _ & _ & C & B). pose proof (atoms_nonneg p WF) as A.
  assert (LN : 0 <= literals p) by (unfold literals; lia).
  set (k := Z.of_nat (length (clauses p))) in *. assert (KN : 0 <= k) by (unfold k; lia). clearbody k.
  assert ((or_backtracks rep + 1) * (k + atoms p + literals p + or_backtracks rep) <= (atoms p + 1) * (k + 2 * atoms p + literals p + 1)).
  { apply Z.mul_le_mono_nonneg; lia. }
  assert (k + 2 * atoms p + literals p + 1 <= (atoms p + 1) * (k + 2 * atoms p + literals p + 1)) by nia.
  cbn in I. decompose [or] I; subst; try lia; contradiction.
Qed.

Lemma chrono_int fuel e clk p rep : wf p -> o_solve fuel Chrono e clk p = Ok rep ->
  Z.of_nat (length (clauses p)) + (2 * or_backtracks rep + 1) * (atoms p + literals p) <= int_max ->
  forall x, In x [or_decisions rep; or_units rep; or_entails rep; or_backtracks rep] -> 0 <= x <= int_max.
Proof.
  intros WF H L x I. pose proof (chrono_range fuel e clk p rep WF H) as (D & U & E & S).
  destruct (chrono_counts fuel e clk p rep WF H) as (_ & B0 & B1 & B2).
  assert (or_backtracks rep <= Z.max 1 (or_decisions rep)).
  { destruct (or_verdict rep); [specialize (B2 ltac:(discriminate))|specialize (B2 ltac:(discriminate))|specialize (B1 eq_refl)]; lia. }
  assert (1 <= int_max) by (unfold int_max; lia).
  cbn in I. decompose [or] I; subst; try lia; contradiction.
Qed.
