(** * Problem files for the encoders *)

From Coq Require Import Ascii String.
From Verif Require Import Spec Outcome Cases TextSpec ModelText.
#[local] Open Scope Z_scope.

(** Three variables with 3, 2 and 4 values; the two-valued one occurs in equalities only. *)
Definition p_enc : problem :=
  mkProblem [3; 2; 4] [[veq 1 2; vne 3 0; veq 2 1]; [vne 1 2]; [veq 2 0; veq 3 3]].
Definition f_enc : text :=
  unlines (map txt ["c for the encoders"; "p cnf 3 3"; "d 1 3"; "d 2 2"; "d 3 4"; "1=2 3!=0 2=1 0"; "1!=2 0"; "c"; "2=0 3=3 0"]%string).

(** [v!=d] on a two-valued variable. *)
Definition p_neg2 : problem := mkProblem [2] [[veq 1 0]; [vne 1 1]].
Definition f_neg2 : text := unlines (map txt ["p cnf 1 2"; "d 1 2"; "1=0 0"; "1!=1 0"]%string).

(** A domain with 13 values. *)
Definition p_13 : problem := mkProblem [13] [[veq 1 12]].
Definition f_13 : text := unlines (map txt ["p cnf 1 1"; "d 1 13"; "1=12 0"]%string).
