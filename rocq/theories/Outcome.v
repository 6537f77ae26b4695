(** * Outcomes of running C++ code

    [Ok a]      the code finished and produced [a];
    [Undef u]   the C++ text has undefined behaviour (or behaviour outside the model) at this
                point, [u] says which;
    [OutOfFuel] the bound on the number of loop iterations given to the model was used up
                (says nothing about the code). *)

From Coq Require Import List.
Import ListNotations.

Inductive ub :=
| OobAtom     (* VARLIST[..] or a per-value array indexed out of bounds *)
| OobClause   (* CLAUSELIST or ATOM_LIST indexed out of bounds *)
| OobStack    (* DECSTACK indexed out of bounds *)
| BadList     (* a watch list node is unlinked from a list it is not on *)
| NoReturn    (* flowing off the end of a non-void function *)
| Aliased     (* one clause object would be registered under two ids (not UB, not modelled) *)
| BadAlloc    (* negative array size *)
| Uninit      (* an uninitialised variable is read *)
| BadScan     (* number conversion out of the range of int *)
| DivZero     (* integer division or remainder by zero *)
| NullArg     (* NULL passed to a string function *)
| Overflow    (* signed integer overflow *)
| BadIter     (* invalid iterator *)
| BadPtr      (* access to or deletion of an object that was deleted *)
| BadBit.     (* position outside a bitset: an exception that nobody catches *)

Inductive outcome (A : Type) :=
| Ok (a : A)
| Undef (u : ub)
| OutOfFuel.
Arguments Ok {A}. Arguments Undef {A}. Arguments OutOfFuel {A}.

Definition bind {A B} (o : outcome A) (f : A -> outcome B) : outcome B :=
  match o with
  | Ok a => f a
  | Undef u => Undef u
  | OutOfFuel => OutOfFuel
  end.

Notation "'let*' x ':=' o 'in' f" := (bind o (fun x => f))
  (at level 200, x pattern, o at level 100, f at level 200, right associativity).
Notation "'do*' o 'in' f" := (bind o (fun _ => f))
  (at level 200, o at level 100, f at level 200, right associativity).

(** A loop over a container, the body may fail. *)
Fixpoint foldM {A B} (f : B -> A -> outcome B) (l : list A) (b : B) : outcome B :=
  match l with
  | [] => Ok b
  | x :: l' => bind (f b x) (foldM f l')
  end.
