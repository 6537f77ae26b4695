(** * Vocabulary of the theorems about the range of the counters *)

From Verif Require Import Spec Outcome State.

(** The number of values of all variables together. *)
Definition values (p : problem) : Z := fold_right Z.add 0 (doms p).

(** The counters among the int members of the class, and the length of the decision stack. *)
Definition counters (s : state) : list Z :=
  [decisions s; units s; entails s; backtracks s; restarts s; Z.of_nat (length (DST (tr s)))].
