(** * The lazy heuristics *)

From Verif Require Import Spec Outcome State StepSpec.

Definition has_true (s : state) (C : clause) : Prop := exists x, In x C /\ is_true s x.

(** [C] is the first clause without a true literal, and [l] its first open literal, which comes
    after false ones only. *)
Definition lazy_choice (s : state) (l : lit) : Prop :=
  (lvar l = -1 /\ forall C, In C (cl s) -> has_true s C) \/
  exists before C after falses rest,
    cl s = before ++ C :: after /\ (forall D, In D before -> has_true s D) /\ ~ has_true s C /\
    C = falses ++ l :: rest /\ (forall x, In x falses -> is_false s x) /\ is_open s l.

(** [l] is the first of the first watched literals that is open; the clauses before its clause
    have a true literal. *)
Definition lazy_watch_choice (s : state) (l : lit) : Prop :=
  (lvar l = -1 /\ forall C, In C (cl s) -> has_true s C) \/
  exists before C after,
    cl s = before ++ C :: after /\ (forall D, In D before -> has_true s D) /\
    (forall n, (n < length before)%nat -> ~ is_open s (w0 s n)) /\
    l = w0 s (length before) /\ In l C /\ is_open s l.
