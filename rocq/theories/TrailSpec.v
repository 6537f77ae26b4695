(** * Vocabulary of the theorems about the decision stack and about propagation *)

From Verif Require Import Spec Outcome State StepSpec.

(** [g] rules out [x]. *)
Definition excludes (g x : lit) : Prop := forall a, lit_holds a g -> ~ lit_holds a x.

(** The decision stack: distinct true literals in the order of their levels; each knows its
    position; together they say exactly what is assigned. *)
Record stacked (p : problem) (s : state) : Prop := mkStacked {
  st_distinct : NoDup (DST (tr s));
  st_entry : forall f, In f (DST (tr s)) ->
    declared p (lvar f) (lval f) /\ is_true s f /\ 0 <= level_of s f <= level s;
  st_index : forall pre f post, DST (tr s) = pre ++ f :: post ->
    AIDX (tr s) (lvar f) (lval f) = Z.of_nat (length pre) /\
    forall g, In g pre -> level_of s g <= level_of s f;
  st_equal : forall v d, declared p v d -> ASG (tr s) v d = Pos -> In (mkLit v d true) (DST (tr s));
  st_unequal : forall v d, declared p v d -> ASG (tr s) v d = Neg ->
    exists f, In f (DST (tr s)) /\ excludes f (mkLit v d true) /\ level_of s f = ALEV (tr s) v d;
  st_free : forall v d, declared p v d -> ASG (tr s) v d = Un -> ALEV (tr s) v d = -10
}.

(** The values of the variables: [VAL] is the one value assigned to the variable, or -1.  Without
    a conflict a value excludes all others, and a variable without value has two values left. *)
Record valued (p : problem) (s : state) : Prop := mkValued {
  va_set : forall v d, declared p v d -> (ASG (tr s) v d = Pos <-> VAL (tr s) v = d);
  va_none : forall v, 1 <= v <= nvars p -> VAL (tr s) v = -1 \/ declared p v (VAL (tr s) v);
  va_only : conflict s = false -> forall v d e, declared p v d -> declared p v e ->
    VAL (tr s) v = d -> e <> d -> ASG (tr s) v e = Neg;
  va_two : conflict s = false -> forall v, 1 <= v <= nvars p -> VAL (tr s) v = -1 ->
    exists d e, d <> e /\ declared p v d /\ declared p v e /\ ASG (tr s) v d = Un /\ ASG (tr s) v e = Un
}.

(** Every entry of the stack is there for a reason.  A decision opens a level, and every level has
    one.  A propagated literal is in its clause, whose other literals are ruled out by entries
    below it; a literal entailed by the domain has all other values ruled out by entries below it. *)
Record explained (p : problem) (s : state) : Prop := mkExplained {
  ex_reason : forall pre f post, DST (tr s) = pre ++ f :: post ->
    match CID (tr s) (lvar f) (lval f) with
    | RDec => 1 <= level_of s f /\ forall g, In g pre -> level_of s g < level_of s f
    | RCls n => exists C, nth_error (cl s) n = Some C /\ In f C /\
        forall x, In x C -> x <> f -> exists g, In g pre /\ excludes g x
    | REnt => leq f = true /\ forall d, declared p (lvar f) d -> d <> lval f ->
        exists g, In g pre /\ excludes g (mkLit (lvar f) d true)
    | RUndef => False
    end;
  ex_level : forall k, 1 <= k <= level s ->
    exists f, In f (DST (tr s)) /\ level_of s f = k /\ CID (tr s) (lvar f) (lval f) = RDec
}.

(** Nothing is left to propagate: a clause without a true literal has two open ones. *)
Definition propagated (s : state) : Prop :=
  forall C, In C (cl s) -> (exists l, In l C /\ is_true s l) \/
    (2 <= length (filter (lit_un (tr s)) C))%nat.

(** The occurrence lists are exact. *)
Definition recorded (s : state) : Prop :=
  (forall l n, In n (rec s l) -> (n < length (cl s))%nat) /\
  forall n C, nth_error (cl s) n = Some C -> forall l,
    length (filter (Nat.eqb n) (rec s l)) = length (filter (lit_eqb l) C).
