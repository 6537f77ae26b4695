(** * The second solver: merging and resolution *)

From Verif Require Import Spec Outcome State ModelBuild ModelBit Base BitTrail BitInv.

Section Merge.
Variable P : blit -> Prop.

Section All.
Hypothesis P_lor : forall v a b, P (v, a) -> P (v, b) -> P (v, Z.lor a b).

Lemma add_atom_all c l : (forall x, In x c -> P x) -> P l -> forall x, In x (add_atom c l) -> P x.
Proof.
  induction c as [|m c IH]; intros Hc Hl x Hx.
  - destruct Hx as [<-|[]]; auto.
  - cbn [add_atom] in Hx. destruct (Z.eqb_spec (fst m) (fst l)) as [E|N].
    + destruct Hx as [<-|Hx]; [|apply Hc; right; auto]. apply P_lor.
      * pose proof (Hc m (or_introl eq_refl)). destruct m; auto.
      * rewrite E. destruct l; auto.
    + destruct Hx as [<-|Hx]; [apply Hc; left; auto|]. apply IH; auto. intros y Hy. apply Hc. right. auto.
Qed.

Lemma add_atoms_all ls c : (forall x, In x c -> P x) -> (forall x, In x ls -> P x) ->
  forall x, In x (fold_left add_atom ls c) -> P x.
Proof.
  revert c. induction ls as [|l ls IH]; intros c Hc Hl; auto. cbn [fold_left]. apply IH.
  - apply add_atom_all; auto. apply Hl. left. auto.
  - intros x Hx. apply Hl. right. auto.
Qed.

Lemma resolve_all c l r :
  (forall x, In x c -> fst x <> fst l -> P x) -> (forall x, In x r -> fst x <> fst l -> P x) ->
  (forall x, In x r -> fst x = fst l -> Z.land (snd l) (snd x) <> 0 -> P (fst l, Z.land (snd l) (snd x))) ->
  forall x, In x (bresolve c l r) -> P x.
Proof.
  intros Hc Hr1 Hr2. unfold bresolve.
  assert (H0 : forall x, In x (fold_left add_atom (filter (fun x => negb (fst x =? fst l)) c) []) -> P x).
  { apply add_atoms_all; [intros x []|]. intros x Hx. apply filter_In in Hx. destruct Hx as (Hx & Ex).
    apply Hc; auto. apply negb_true_iff, Z.eqb_neq in Ex. auto. }
  revert H0. generalize (fold_left add_atom (filter (fun x => negb (fst x =? fst l)) c) []).
  clear Hc. induction r as [|y r IH]; intros acc H0; auto. cbn [fold_left]. apply IH.
  - intros x Hx. apply Hr1. right. auto.
  - intros x Hx. apply Hr2. right. auto.
  - unfold bresolve_step. destruct (Z.eqb_spec (fst y) (fst l)) as [E|N].
    + destruct (Z.eqb_spec (Z.land (snd l) (snd y)) 0) as [Ez|Nz]; auto.
      apply add_atom_all; auto. apply Hr2; auto. left. auto.
    + apply add_atom_all; auto. apply Hr1; auto. left. auto.
Qed.
End All.

Section Some.
Hypothesis P_l : forall v a b, P (v, a) -> P (v, Z.lor a b).
Hypothesis P_r : forall v a b, P (v, b) -> P (v, Z.lor a b).

Lemma add_atom_ex c l : (exists x, In x c /\ P x) \/ P l -> exists x, In x (add_atom c l) /\ P x.
Proof.
  induction c as [|m c IH]; intro H.
  - destruct H as [(x & [] & _)|H]. exists l. simpl. auto.
  - cbn [add_atom]. destruct (Z.eqb_spec (fst m) (fst l)) as [E|N].
    + destruct H as [(x & [->|Hx] & H)|H].
      * exists (fst x, Z.lor (snd x) (snd l)). split; [left; auto|]. apply P_l. destruct x; auto.
      * exists x. split; [right; auto|auto].
      * exists (fst m, Z.lor (snd m) (snd l)). split; [left; auto|]. apply P_r. rewrite E. destruct l; auto.
    + destruct H as [(x & [->|Hx] & H)|H].
      * exists x. split; [left; auto|auto].
      * destruct IH as (y & Hy & HP); [left; exists x; auto|]. exists y. split; [right; auto|auto].
      * destruct IH as (y & Hy & HP); [auto|]. exists y. split; [right; auto|auto].
Qed.

Lemma add_atoms_ex ls c : (exists x, In x c /\ P x) \/ (exists x, In x ls /\ P x) ->
  exists x, In x (fold_left add_atom ls c) /\ P x.
Proof.
  revert c. induction ls as [|l ls IH]; intros c H.
  - destruct H as [H|(x & [] & _)]; auto.
  - cbn [fold_left]. apply IH. destruct H as [H|(x & [->|Hx] & HP)].
    + left. apply add_atom_ex; auto.
    + left. apply add_atom_ex; auto.
    + right. eauto.
Qed.

Lemma resolve_ex c l r :
  (exists x, In x c /\ fst x <> fst l /\ P x) \/ (exists x, In x r /\ fst x <> fst l /\ P x) \/
  (exists x, In x r /\ fst x = fst l /\ Z.land (snd l) (snd x) <> 0 /\ P (fst l, Z.land (snd l) (snd x))) ->
  exists x, In x (bresolve c l r) /\ P x.
Proof.
  intro H. unfold bresolve.
  assert (H0 : (exists x, In x (fold_left add_atom (filter (fun x => negb (fst x =? fst l)) c) []) /\ P x) \/
    (exists x, In x r /\ fst x <> fst l /\ P x) \/
    (exists x, In x r /\ fst x = fst l /\ Z.land (snd l) (snd x) <> 0 /\ P (fst l, Z.land (snd l) (snd x)))).
  { destruct H as [(x & Hx & Nx & HP)|H]; auto. left. apply add_atoms_ex. right. exists x. split; auto.
    apply filter_In. split; auto. apply negb_true_iff, Z.eqb_neq. auto. }
  clear H. revert H0. generalize (fold_left add_atom (filter (fun x => negb (fst x =? fst l)) c) []).
  induction r as [|y r IH]; intros acc H0.
  - destruct H0 as [H0|[(x & [] & _)|(x & [] & _)]]. auto.
  - cbn [fold_left]. apply IH. unfold bresolve_step. destruct H0 as [H0|[(x & [->|Hx] & Nx & HP)|(x & [->|Hx] & Ex & Nz & HP)]].
    + left. destruct (fst y =? fst l); [destruct (Z.land (snd l) (snd y) =? 0); auto|]; apply add_atom_ex; auto.
    + left. destruct (Z.eqb_spec (fst x) (fst l)); [congruence|]. apply add_atom_ex; auto.
    + right. left. eauto.
    + left. destruct (Z.eqb_spec (fst x) (fst l)); [|congruence].
      destruct (Z.eqb_spec (Z.land (snd l) (snd x)) 0); [congruence|]. apply add_atom_ex; auto.
    + right. right. eauto.
Qed.
End Some.
End Merge.

Lemma add_atom_vars c l v : In v (map fst (add_atom c l)) <-> In v (map fst c) \/ v = fst l.
Proof.
  induction c as [|m c IH]; [simpl; intuition|]. cbn [add_atom].
  destruct (Z.eqb_spec (fst m) (fst l)) as [E|N]; simpl.
  - intuition congruence.
  - rewrite IH. tauto.
Qed.

Lemma add_atom_nodup c l : NoDup (map fst c) -> NoDup (map fst (add_atom c l)).
Proof.
  induction c as [|m c IH]; [simpl; repeat constructor; auto|]. cbn [add_atom map]. intro H.
  inversion H as [|? ? H1 H2]; subst. destruct (Z.eqb_spec (fst m) (fst l)) as [E|N]; simpl; constructor; auto.
  rewrite add_atom_vars. intros [|]; auto.
Qed.

Lemma add_atoms_nodup ls c : NoDup (map fst c) -> NoDup (map fst (fold_left add_atom ls c)).
Proof.
  revert c. induction ls as [|l ls IH]; intros c H; auto. cbn [fold_left]. apply IH, add_atom_nodup; auto.
Qed.

Lemma resolve_nodup c l r : NoDup (map fst (bresolve c l r)).
Proof.
  unfold bresolve.
  assert (H : NoDup (map fst (fold_left add_atom (filter (fun x => negb (fst x =? fst l)) c) []))).
  { apply add_atoms_nodup. constructor. }
  revert H. generalize (fold_left add_atom (filter (fun x => negb (fst x =? fst l)) c) []).
  induction r as [|y r IH]; intros acc H; auto. cbn [fold_left]. apply IH. unfold bresolve_step.
  destruct (fst y =? fst l); [destruct (Z.land (snd l) (snd y) =? 0); auto|]; apply add_atom_nodup; auto.
Qed.

(** Resolution is sound. *)
Lemma resolve_holds a c l r : NoDup (map fst c) -> In l c -> bholds a c -> bholds a r -> bholds a (bresolve c l r).
Proof.
  intros ND Hl (x & Hx & HPx) (y & Hy & HPy).
  apply (resolve_ex (fun x => inn (a (fst x)) (snd x))); cbn [fst snd].
  - intros v m1 m2 H. apply inn_lor. auto.
  - intros v m1 m2 H. apply inn_lor. auto.
  - destruct (Z.eq_dec (fst x) (fst l)) as [Ex|Nx].
    + assert (x = l) as -> by (apply (nodup_fst_eq c); auto).
      right. destruct (Z.eq_dec (fst y) (fst l)) as [Ey|Ny].
      * right. exists y. split; auto. split; auto.
        assert (inn (a (fst l)) (Z.land (snd l) (snd y))) by (apply inn_land; split; auto; congruence).
        split; auto. eapply inn_nonzero; eauto.
      * left. exists y. auto.
    + left. exists x. auto.
Qed.
