(** * Vocabulary of the theorems about the printed statistics *)

From Verif Require Import Spec Outcome State.

(** Why an entry of the decision stack is there: it was decided, it was propagated from a clause,
    or it is the last value left for a variable. *)
Inductive origin := Decided | Propagated | Entailed.

Definition has_origin (k : origin) (r : reason) : bool :=
  match k, r with
  | Decided, RDec | Propagated, RCls _ | Entailed, REnt => true
  | _, _ => false
  end.

(** The number of entries of the decision stack with origin [k]. *)
Definition entries (k : origin) (s : state) : Z :=
  Z.of_nat (length (filter (fun f => has_origin k (CID (tr s) (lvar f) (lval f))) (DST (tr s)))).

(** The statistic that counts them: DECISIONS, UNITS, ENTAILS. *)
Definition total_of (k : origin) (s : state) : Z :=
  match k with Decided => decisions s | Propagated => units s | Entailed => entails s end.

(** From [s] to [s'] the statistics have grown by what was added to the decision stack. *)
Definition accounted (s s' : state) : Prop :=
  forall k, total_of k s' - total_of k s = entries k s' - entries k s.
