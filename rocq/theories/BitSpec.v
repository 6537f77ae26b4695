(** * Specification for the second solver (bitvec/)

    The second solver prints for each variable the set of values that are left, as a row of
    binary digits.  Any value of the set may be chosen. *)

From Verif Require Import Spec.

(** A set of values printed as binary digits: value [d] belongs to it if digit [d] is 1. *)
Definition has_value (m d : Z) : Prop := Z.testbit m d = true.

(** What is printed: pairs of a variable and the set of its values.  Variable 0 does not exist in
    problems. *)
Definition picks (md : list (Z * Z)) (a : assignment) : Prop :=
  forall v m, In (v, m) md -> v <> 0 -> has_value m (a v).

(** A clause of sets holds if some variable has a value of its set. *)
Definition set_clause_holds (a : assignment) (c : list (Z * Z)) : Prop :=
  exists v m, In (v, m) c /\ has_value m (a v).

(** All literals of the clause are about one variable. *)
Definition one_var (c : clause) : Prop := forall l m, In l c -> In m c -> lvar l = lvar m.

(** At most one clause of the problem is about one variable only. *)
Definition lone (p : problem) : Prop :=
  forall i j c d, nth_error (clauses p) i = Some c -> nth_error (clauses p) j = Some d ->
    one_var c -> one_var d -> i = j.

(** All domains fit into the fixed number of digits. *)
Definition fits64 (p : problem) : Prop := forall d, In d (doms p) -> d <= 64.

(** Decidable versions, for the examples. *)
Definition one_varb (c : clause) : bool :=
  match c with [] => true | l :: c' => forallb (fun m => lvar m =? lvar l) c' end.
Definition loneb (p : problem) : bool := Nat.leb (length (filter one_varb (clauses p))) 1.

Lemma one_varb_ok c : one_var c -> one_varb c = true.
Proof.
  intro H. destruct c as [|l c]; auto. cbn. apply forallb_forall. intros m Hm. apply Z.eqb_eq. apply H; [right|left]; auto.
Qed.

Lemma loneb_ok p : loneb p = true -> lone p.
Proof.
  unfold loneb, lone. intro H. apply Nat.leb_le in H. intros i j c d Hi Hj Oc Od.
  apply one_varb_ok in Oc, Od. revert i j Hi Hj H. induction (clauses p) as [|x cs IH]; intros i j Hi Hj H.
  - destruct i; discriminate.
  - assert (K : forall k e, nth_error cs k = Some e -> one_varb e = true -> (1 <= length (filter one_varb cs))%nat).
    { intros k e Hk He. apply nth_error_In in Hk. assert (In e (filter one_varb cs)) by (apply filter_In; auto).
      destruct (filter one_varb cs); [contradiction|cbn; lia]. }
    cbn [filter] in H. destruct i as [|i], j as [|j]; cbn [nth_error] in Hi, Hj; auto.
    + injection Hi as ->. rewrite Oc in H. cbn in H. specialize (K j d Hj Od). lia.
    + injection Hj as ->. rewrite Od in H. cbn in H. specialize (K i c Hi Oc). lia.
    + f_equal. apply (IH i j Hi Hj). destruct (one_varb x); cbn in H; lia.
Qed.
