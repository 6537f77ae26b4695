(** * Facts shared by the two learning searches *)

From Verif Require Import Spec Outcome State ModelCounter ModelLearn Base Trail Reduce Propagate
  Choose Chrono Analyze Learn.

(** ** A bound on the number of clauses that can be learned *)

Fixpoint sublists {A} (l : list A) : list (list A) :=
  match l with
  | [] => [[]]
  | x :: l' => map (cons x) (sublists l') ++ sublists l'
  end.

Lemma filter_sublist {A} (f : A -> bool) l : In (filter f l) (sublists l).
Proof.
  induction l as [|x l IH]; simpl; auto. apply in_app_iff. destruct (f x); auto.
  left. apply in_map; auto.
Qed.

(** All literals over the variables of the trail. *)
Definition lits_of (t : trail) : list lit :=
  flat_map (fun a => [mkLit (fst a) (snd a) true; mkLit (fst a) (snd a) false]) (atoms_from t 1).

Lemma in_lits_of t l : lrange t l -> In l (lits_of t).
Proof.
  intro R. unfold lits_of. apply in_flat_map. exists (lvar l, lval l). split.
  - apply in_atoms1. exact R.
  - destruct l as [v d []]; simpl; auto.
Qed.

Definition contains (S D : clause) : bool := forallb (has_atom S) D.
Definition uncovered (t : trail) (cls : list clause) : nat :=
  countb (fun S => forallb (fun D => negb (contains S D)) cls) (sublists (lits_of t)).

Lemma contains_iff S D : contains S D = true <-> incl D S.
Proof.
  unfold contains. rewrite forallb_forall. unfold incl. split; intros H x Hx.
  - apply has_atom_In. apply H; auto.
  - apply has_atom_In. apply H; auto.
Qed.

Lemma uncovered_ext t t' cls : NV t' = NV t -> DOM t' = DOM t -> uncovered t' cls = uncovered t cls.
Proof. intros N D. unfold uncovered, lits_of. rewrite (atoms_from_ext t t'); auto. Qed.

Lemma uncovered_lt t cls C :
  (forall l, In l C -> lrange t l) -> fresh cls C ->
  (uncovered t (cls ++ [C]) < uncovered t cls)%nat.
Proof.
  intros R F. set (S := filter (fun l => has_atom C l) (lits_of t)).
  assert (IS : forall l, In l S <-> In l C).
  { intro l. unfold S. rewrite filter_In. unfold has_atom. rewrite has_atom_In. split; [tauto|].
    intro H. split; auto. apply in_lits_of; auto. }
  unfold uncovered. apply countb_lt with S.
  - intros T _ H. rewrite forallb_app in H. apply andb_true_iff in H. tauto.
  - apply filter_sublist.
  - rewrite forallb_app. apply andb_false_iff. right. simpl.
    assert (contains S C = true) as ->; auto. apply contains_iff. intros l Hl. apply IS; auto.
  - apply forallb_forall. intros D HD. apply negb_true_iff.
    destruct (contains S D) eqn:E; auto. exfalso. apply (F D HD).
    apply contains_iff in E. intros l Hl. apply IS. auto.
Qed.

(** ** Level 0 is entailed *)

Section Zero.
Variables (t : trail) (cls : list clause) (ex : Z -> Prop).
Hypothesis HB : TB t 0 ex.
Hypothesis HD : TD t.
Hypothesis HR : TR t cls.
Hypothesis HW : cls_ok t cls.

Lemma zero_agree a : legalT a t -> (forall c, In c cls -> clause_holds a c) -> agree a t.
Proof.
  intros La Ha.
  assert (Z0 : forall l, lrange t l -> ASG t (lvar l) (lval l) <> Un -> llev t l = 0).
  { intros l R A. destruct (tb_as _ _ _ HB _ _ R A). unfold llev. lia. }
  assert (G : forall i f, nth_error (DST t) i = Some f -> lit_holds a f).
  { induction i as [i IH] using lt_wf_ind. intros f Hf.
    destruct (td_dst _ HD i f Hf) as (Rf & Tf & If).
    assert (FA : forall r, lrange t r -> lit_false t r = true -> lidx t r < Z.of_nat i -> ~ lit_holds a r).
    { intros r Rr Fr Lr. destruct (false_entry t HD r Rr Fr) as (j & g & G1 & G2 & G3 & _ & _ & _ & G7).
      assert (Hg : lit_holds a g) by (apply (IH j); auto; lia).
      destruct G7 as [->|(Q1 & Q2 & Q3)].
      - apply lit_holds_neg; auto.
      - unfold lit_holds in *. rewrite Q2 in Hg. rewrite Q1. congruence. }
    pose proof (HR i f Hf) as RO. unfold reason_ok in RO.
    destruct (CID t (lvar f) (lval f)) as [| |n|].
    - destruct RO as (X & _). rewrite Z0 in X; auto; [lia|]. apply lit_true_as; auto.
    - destruct RO as (E & RO & d & (_ & Rd) & Nd & _). unfold lit_holds. rewrite E.
      destruct (Z.eq_dec (a (lvar f)) (lval f)) as [|N]; auto. exfalso.
      assert (R : range t (lvar f) (a (lvar f))).
      { split; [apply Rf|]. pose proof (La _ (proj1 Rf)). destruct Rf as (_ & Rf). lia. }
      destruct (RO _ R N) as (A1 & A2).
      apply (FA (mkLit (lvar f) (a (lvar f)) true)); auto; [|reflexivity].
      apply lit_false_asg. simpl. auto.
    - destruct RO as (R & HRn & HfR & RO & _).
      destruct (Ha R) as (r & Hr & Tr); [eapply nth_error_In; eauto|].
      destruct (lit_eq_dec r f) as [->|N]; auto. exfalso.
      destruct (RO r Hr N) as (F1 & F2). apply (FA r); auto.
      apply (HW R); auto. eapply nth_error_In; eauto.
    - destruct RO. }
  intros v d R. split; intro A.
  - destruct (td_atom _ HD v d R) as (i & f & F1 & _ & F3 & _ & _ & F6); [congruence|].
    destruct F6 as [->|(F6 & _)]; [|congruence]. apply G in F1. rewrite A in F1. exact F1.
  - destruct (td_atom _ HD v d R) as (i & f & F1 & _ & F3 & _ & _ & F6); [congruence|].
    apply G in F1. unfold lit_holds in F1. destruct F6 as [->|(_ & F6 & F7)].
    + rewrite A in F1. exact F1.
    + rewrite F6, F3 in F1. congruence.
Qed.
End Zero.

(** ** A consistent trail can be completed *)

Definition pick (t : trail) : assignment := fun v =>
  if VAL t v =? -1 then
    match find (fun d => match ASG t v d with Un => true | _ => false end) (zrange 0 (DOM t v)) with
    | Some d => d
    | None => DOM t v
    end
  else VAL t v.

Lemma pick_agree t lev : TB t lev (fun _ => False) -> legalT (pick t) t /\ agree (pick t) t.
Proof.
  intro H.
  assert (G : forall v, 1 <= v <= NV t -> 0 <= pick t v < Z.max 2 (DOM t v) /\
              (VAL t v = -1 -> range t v (pick t v) -> ASG t v (pick t v) = Un) /\
              (VAL t v <> -1 -> pick t v = VAL t v)).
  { intros v R. pose proof (tb_dom _ _ _ H v R) as D0. unfold pick. destruct (Z.eqb_spec (VAL t v) (-1)) as [E|N].
    - destruct (find _ _) as [d|] eqn:F.
      + apply find_some in F. destruct F as (F1 & F2). apply in_zrange in F1.
        split; [lia|]. split; [|congruence]. intros _ _. destruct (ASG t v d); auto; discriminate.
      + split; [|split; [|congruence]].
        * destruct (Z.lt_ge_cases (DOM t v) 2) as [Sm|Lg]; [lia|]. exfalso.
          destruct (tb_two _ _ _ H v lev R Lg) as (d1 & d2 & N12 & D1 & D2 & O1 & O2); auto.
          { intros d Rd A. exfalso. rewrite (tb_pos _ _ _ H v d Rd A) in E. destruct Rd; lia. }
          assert (U : ASG t v d1 = Un).
          { destruct O1 as [|O1]; auto. destruct (ASG t v d1) eqn:A; auto; exfalso;
              destruct (tb_as _ _ _ H v d1 D1); try congruence; lia. }
          assert (X := find_none _ _ F d1). cbv beta in X. rewrite U in X.
          enough (true = false) by discriminate. apply X. apply in_zrange. destruct D1; lia.
        * intros _ (_ & X). lia.
    - destruct (tb_val _ _ _ H v R N) as ((_ & X) & _). split; [lia|]. split; auto. congruence. }
  split.
  - intros v R. apply (G v R).
  - intros v d R. destruct (G v (proj1 R)) as (G1 & G2 & G3). split; intro A.
    + pose proof (tb_pos _ _ _ H v d R A) as E. rewrite G3; auto. rewrite E. destruct R; lia.
    + intros E. subst d. destruct (Z.eq_dec (VAL t v) (-1)) as [V|V].
      * rewrite G2 in A; auto. discriminate.
      * destruct (tb_val _ _ _ H v (proj1 R) V) as (_ & X). rewrite G3 in A; auto. congruence.
Qed.

Lemma all_sat_holds s a c : cls_ok (tr s) (cl s) -> all_sat s -> agree a (tr s) -> In c (cl s) ->
  clause_holds a c.
Proof.
  intros W A G Hc. destruct (A c Hc) as (l & Hl & Tl). exists l. split; auto.
  eapply agree_true; eauto.
Qed.
