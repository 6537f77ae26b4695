(** * What a run of the solver in a series is to print, and the row of the table made of it *)

From Coq Require Import Ascii String Permutation.
From Verif Require Import Spec State Observe TextSpec ModelText ModelEncode ModelMain MainSpec BenchSpec.
#[local] Open Scope char_scope.
#[local] Open Scope list_scope.
#[local] Open Scope Z_scope.

(** The run on the file [f] of [n] queens: [n] queens that do not attack each other, or, after an
    hour, that there was no time. *)
Definition queens_output (f : text) (w : machine) (n : Z) (t r : text) : Prop :=
  exists v rest ds us bs es k rs,
    t = solver_screen f (time1 w) (time2 w) (time3 w) [] (answer_lines v ds us bs es n k rs ++ rest) /\
    (v = txt "SAT" /\ r = row [ds; us; bs; es; n; k; rs] ++ [LF; NUL; SP] /\
       (exists a ls, (forall x, 1 <= x <= n -> 0 <= a x < n) /\ pairwise n a queens_apart /\ Permutation ls (lines_of n a) /\
          rest = model_lines false ls) \/
     v = txt "TIMEOUT" /\ r = row [ds; us; bs; es; n; k; rs] /\ rest = [] /\ exists i, 3600000 < elapsed w i).

(** The run on the file [f] of [n] pigeons: there is no solution, or, after an hour, there was no time. *)
Definition pigeon_output (f : text) (w : machine) (n : Z) (t r : text) : Prop :=
  exists v ds us bs es k rs,
    t = solver_screen f (time1 w) (time2 w) (time3 w) [] (answer_lines v ds us bs es n k rs) /\
    r = row [ds; us; bs; es; n; k; rs] /\
    (v = txt "UNSAT" \/ v = txt "TIMEOUT" /\ exists i, 3600000 < elapsed w i).
