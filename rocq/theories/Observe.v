(** * Vocabulary of the theorems about whole runs

    Small definitions over the specification and the observable state of the solver, used in
    theorem statements only. *)

From Coq Require Import Permutation.
From Verif Require Import Spec Outcome State.

(** The assignment [a] does not contradict the atoms assigned in [s]. *)
Definition fits (p : problem) (s : state) (a : assignment) : Prop :=
  forall v d, 1 <= v <= nvars p -> 0 <= d < domsize p v ->
    (ASG (tr s) v d = Pos -> a v = d) /\ (ASG (tr s) v d = Neg -> a v <> d).

(** The integers lo, lo+1, ..., lo+n-1. *)
Definition numbers (lo : Z) (n : nat) : list Z := map (fun i => lo + Z.of_nat i) (seq 0 n).

(** The lines [1=a(1)], ..., [n=a(n)] describing a total assignment. *)
Definition lines_of (n : Z) (a : assignment) : list lit :=
  map (fun v => mkLit v (a v) true) (numbers 1 (Z.to_nat n)).

(** The literals of [ls] were assigned one after the other: each has a higher position on the
    decision stack than those before it, and no lower level. *)
Definition in_order (s : state) (ls : list lit) : Prop :=
  forall pre f post, ls = pre ++ f :: post -> forall g, In g pre ->
    AIDX (tr s) (lvar g) (lval g) < AIDX (tr s) (lvar f) (lval f) /\
    ALEV (tr s) (lvar g) (lval g) <= ALEV (tr s) (lvar f) (lval f).

(** ** Decision procedures for the hypotheses, used by the examples *)

Lemma wf_lit_dec p l : wf_litb p l = true -> wf_lit p l.
Proof.
  unfold wf_litb, wf_lit. rewrite !andb_true_iff, !Z.leb_le, Z.ltb_lt. tauto.
Qed.

Lemma wf_dec p : wfb p = true -> wf p.
Proof.
  unfold wfb, wf. rewrite andb_true_iff, !forallb_forall. intros (A & B). split.
  - intros d Hd. apply Z.leb_le. auto.
  - intros c Hc. specialize (B c Hc). apply andb_true_iff in B. destruct B as (B1 & B2). split.
    + intros ->. discriminate.
    + intros l Hl. rewrite forallb_forall in B2. apply wf_lit_dec. auto.
Qed.

Lemma nodup_dec c : nodupb c = true -> NoDup c.
Proof.
  induction c as [|l c IH]; simpl; intro H; [constructor|].
  apply andb_true_iff in H. destruct H as (H1 & H2). constructor; auto. intro I.
  apply negb_true_iff in H1. assert (X : existsb (lit_eqb l) c = true); [|congruence].
  apply existsb_exists. exists l. split; auto. unfold lit_eqb.
  rewrite !Z.eqb_refl, Bool.eqb_reflx. auto.
Qed.

Lemma no_repeats_dec p : no_repeatsb p = true -> no_repeats p.
Proof. unfold no_repeatsb. rewrite forallb_forall. intros H c Hc. apply nodup_dec. auto. Qed.

Lemma model_dec p a : is_modelb p a = true -> is_model p a.
Proof.
  unfold is_modelb. rewrite andb_true_iff, !forallb_forall. intros (A & B). split.
  - intros x Hx. specialize (A x). rewrite andb_true_iff, Z.leb_le, Z.ltb_lt in A. apply A.
    apply in_map_iff. exists (Z.to_nat (x - 1)). unfold nvars in Hx. split; [lia|].
    apply in_seq. lia.
  - intros c Hc. specialize (B c Hc). apply existsb_exists in B. destruct B as (l & Hl & E).
    exists l. split; auto. unfold lit_holds, lit_holdsb in *. destruct (leq l).
    + apply Z.eqb_eq; auto.
    + apply negb_true_iff in E. apply Z.eqb_neq; auto.
Qed.
