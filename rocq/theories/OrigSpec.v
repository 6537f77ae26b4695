(** * What the first version decides

    Independent of the model of the solver. *)

From Verif Require Import Spec.

(** How often a literal occurs in the clauses. *)
Definition occurrences (p : problem) (l : lit) : Z :=
  Z.of_nat (list_sum (map (fun c => length (filter (lit_eqb l) c)) (clauses p))).

(** By how much [v=d] occurs more often than [v!=d]. *)
Definition lead (p : problem) (v d : Z) : Z :=
  occurrences p (mkLit v d true) - occurrences p (mkLit v d false).

(** [v=d] has the largest lead, and is the first such atom in the order of the variables and
    of the values. *)
Definition first_choice (p : problem) (v d : Z) : Prop :=
  1 <= v <= nvars p /\ 0 <= d < domsize p v /\
  forall v' d', 1 <= v' <= nvars p -> 0 <= d' < domsize p v' ->
    lead p v' d' <= lead p v d /\
    (v' < v \/ v' = v /\ d' < d -> lead p v' d' < lead p v d).

(** The number of literals of a problem. *)
Definition literals (p : problem) : Z := Z.of_nat (list_sum (map (@length lit) (clauses p))).

(** The number of pairs of a variable and a value. *)
Definition atoms (p : problem) : Z := fold_right Z.add 0 (doms p).

(** No clause has just one literal. *)
Definition no_units (p : problem) : Prop := forall c, In c (clauses p) -> length c <> 1%nat.
