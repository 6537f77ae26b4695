(** * Vocabulary of the theorems about the clause that is learned *)

From Verif Require Import Spec Outcome State StepSpec TrailSpec.

(** The position on the decision stack of the entry that assigned the atom of a literal. *)
Definition index_of (s : state) (l : lit) : Z := AIDX (tr s) (lvar l) (lval l).

(** Exactly one literal of the clause was assigned at the current level. *)
Definition asserting (s : state) (C : clause) : Prop :=
  exists u, In u C /\ level_of s u = level s /\ forall x, In x C -> x <> u -> level_of s x < level s.

(** [l] is the literal of [C] assigned last; the first in [C] if there are several. *)
Definition last_assigned (s : state) (C : clause) (l : lit) : Prop :=
  exists pre post, C = pre ++ l :: post /\
    (forall x, In x pre -> index_of s x < index_of s l) /\
    (forall x, In x post -> index_of s x <= index_of s l).

(** [R] is the clause because of which [l] was assigned: the clause it was propagated from; "one
    of the values" if only this value was left; for a decision [f], the clause [f or not f]. *)
Definition because (s : state) (l : lit) (R : clause) : Prop :=
  match CID (tr s) (lvar l) (lval l) with
  | RCls n => nth_error (cl s) n = Some R
  | REnt => R = map (fun i => mkLit (lvar l) (Z.of_nat i) true) (seq 0 (Z.to_nat (DOM (tr s) (lvar l))))
  | RDec => exists f, nth_error (DST (tr s)) (Z.to_nat (index_of s l)) = Some f /\
      R = [mkLit (lvar f) (lval f) true; mkLit (lvar f) (lval f) false]
  | RUndef => False
  end.

(** [D] is the resolvent of [C] and [R] on [l]: the literals of [C] compatible with [not l], then
    those of [R] that are compatible with [l] and not there yet. *)
Definition resolvent (C : clause) (l : lit) (R D : clause) : Prop :=
  exists f g, D = filter f C ++ filter g R /\
    (forall x, f x = true <-> ~ excludes x (neg l)) /\
    (forall x, g x = true <-> ~ excludes x l /\ ~ In x (filter f C)).

(** Resolving on the literal assigned last until one literal of the current level is left. *)
Inductive learns (s : state) : clause -> clause -> Prop :=
| learns_done C : asserting s C -> learns s C C
| learns_step C l R D E : ~ asserting s C -> last_assigned s C l -> because s l R ->
    resolvent C l R D -> learns s D E -> learns s C E.

(** The same with a given first pivot, which was assigned last. *)
Definition learns_from (s : state) (C : clause) (l : lit) (E : clause) : Prop :=
  ~ asserting s C /\ In l C /\ (forall x, In x C -> index_of s x <= index_of s l) /\
  exists R D, because s l R /\ resolvent C l R D /\ learns s D E.
