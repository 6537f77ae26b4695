(** * Specification: finite-domain CNF problems

    This file is independent of the solver.  It fixes what a problem is, what an
    assignment is and when an assignment satisfies a problem (README.md, section on the
    extended DIMACS format: variables are numbered from 1, a variable of domain size [m]
    takes the values [0 .. m-1], a literal is [v=d] or [v!=d]). *)

From Coq Require Export List ZArith Bool Lia.
Export ListNotations.
#[global] Open Scope Z_scope.

(** A literal: [mkLit v d true] is [v=d], [mkLit v d false] is [v!=d]. *)
Record lit := mkLit { lvar : Z; lval : Z; leq : bool }.

Definition clause := list lit.

(** A problem: the domain sizes of the variables 1, 2, ..., and the clauses. *)
Record problem := mkProblem { doms : list Z; clauses : list clause }.

Definition nvars (p : problem) : Z := Z.of_nat (length (doms p)).

(** Domain size of variable [x] (0 if [x] is not declared). *)
Definition domsize (p : problem) (x : Z) : Z :=
  if 1 <=? x then nth (Z.to_nat (x - 1)) (doms p) 0 else 0.

(** An assignment gives a value to every variable. *)
Definition assignment := Z -> Z.

Definition lit_holds (a : assignment) (l : lit) : Prop :=
  if leq l then a (lvar l) = lval l else a (lvar l) <> lval l.

Definition clause_holds (a : assignment) (c : clause) : Prop :=
  exists l, In l c /\ lit_holds a l.

(** [a] respects the declared domains. *)
Definition legal (p : problem) (a : assignment) : Prop :=
  forall x, 1 <= x <= nvars p -> 0 <= a x < domsize p x.

Definition is_model (p : problem) (a : assignment) : Prop :=
  legal p a /\ forall c, In c (clauses p) -> clause_holds a c.

Definition satisfiable (p : problem) : Prop := exists a, is_model p a.

(** A clause is a consequence of a problem. *)
Definition consequence (p : problem) (c : clause) : Prop :=
  forall a, is_model p a -> clause_holds a c.

(** Well-formed problems: every domain has at least two values, no clause is empty,
    every literal is about a declared variable and a value of its domain. *)
Definition wf_lit (p : problem) (l : lit) : Prop :=
  1 <= lvar l <= nvars p /\ 0 <= lval l < domsize p (lvar l).

Definition wf (p : problem) : Prop :=
  (forall d, In d (doms p) -> 2 <= d) /\
  (forall c, In c (clauses p) -> c <> [] /\ forall l, In l c -> wf_lit p l).

(** No clause repeats a literal. *)
Definition no_repeats (p : problem) : Prop :=
  forall c, In c (clauses p) -> NoDup c.

(** Decidable versions (used only to discharge the hypotheses on concrete problems). *)
Definition wf_litb (p : problem) (l : lit) : bool :=
  (1 <=? lvar l) && (lvar l <=? nvars p) && (0 <=? lval l) && (lval l <? domsize p (lvar l)).

Definition wfb (p : problem) : bool :=
  forallb (fun d => 2 <=? d) (doms p) &&
  forallb (fun c => negb (Nat.eqb (length c) 0) && forallb (wf_litb p) c) (clauses p).

Definition lit_eqb (a b : lit) : bool :=
  (lvar a =? lvar b) && (lval a =? lval b) && Bool.eqb (leq a) (leq b).

Fixpoint nodupb (c : clause) : bool :=
  match c with
  | [] => true
  | l :: c' => negb (existsb (lit_eqb l) c') && nodupb c'
  end.

Definition no_repeatsb (p : problem) : bool := forallb nodupb (clauses p).

(** Decidable satisfaction by an assignment given as a list of values for 1, 2, ... *)
Definition assign_of (vs : list Z) : assignment := fun x => nth (Z.to_nat (x - 1)) vs 0.

Definition lit_holdsb (a : assignment) (l : lit) : bool :=
  if leq l then a (lvar l) =? lval l else negb (a (lvar l) =? lval l).

Definition is_modelb (p : problem) (a : assignment) : bool :=
  forallb (fun i => (0 <=? a i) && (a i <? domsize p i))
          (map (fun n => Z.of_nat (S n)) (seq 0 (length (doms p)))) &&
  forallb (existsb (lit_holdsb a)) (clauses p).
