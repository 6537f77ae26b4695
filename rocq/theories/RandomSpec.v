(** * What the generators of random Boolean problems are to write

    Independent of the programs. *)

From Coq Require Import Sorted.
From Verif Require Import Spec TextSpec.
#[local] Open Scope Z_scope.

(** [m] clauses of [len] literals each, over the variables [1 .. n]. *)
Definition fixed_shape (n m len : Z) (f : cnf) : Prop :=
  Z.of_nat (length f) = m /\ forall c, In c f -> Z.of_nat (length c) = len /\ forall z, In z c -> 1 <= Z.abs z <= n.

(** [m] clauses over the variables [1 .. n], in each of which the variables increase. *)
Definition constant_shape (n m : Z) (f : cnf) : Prop :=
  Z.of_nat (length f) = m /\
  forall c, In c f -> StronglySorted (fun x y => Z.abs x < Z.abs y) c /\ forall z, In z c -> 1 <= Z.abs z <= n.

(** The variable [x] occurs in the clauses. *)
Definition occurs (f : cnf) (x : Z) : Prop := exists c z, In c f /\ In z c /\ Z.abs z = x.

(** [v] variables occur. *)
Definition variables_count (f : cnf) (v : Z) : Prop :=
  exists vs, NoDup vs /\ (forall x, In x vs <-> occurs f x) /\ v = Z.of_nat (length vs).
