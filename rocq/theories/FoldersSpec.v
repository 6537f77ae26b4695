(** * What coloring_script.py is to report of a line with an error *)

From Coq Require Import Ascii String.
From Verif Require Import Spec TextSpec ModelText.
#[local] Open Scope char_scope.
#[local] Open Scope list_scope.

Definition starts (a : ascii) (l : text) : Prop := exists r, l = a :: r.

(** The line [l] after the lines [before] is reported as [kind]. *)
Definition reported (before : list text) (l kind : text) : Prop :=
  starts "p" l /\ (exists b, In b before /\ starts "p" b) /\ kind = txt "The second problem line is found" \/
  starts "p" l /\ (forall b, In b before -> ~ starts "p" b) /\ kind = txt "Incorrect problem line" \/
  starts "e" l /\ kind = txt "Incorrect edge line" \/
  ~ starts "p" l /\ ~ starts "e" l /\ ~ starts "c" l /\ kind = txt "Unknown line type".

(** The characters of Python's white space below 128. *)
Definition white (a : ascii) : Prop := (9 <= nat_of_ascii a <= 13 \/ 28 <= nat_of_ascii a <= 32)%nat.
(** [line] is [l] without white space at the ends. *)
Definition stripped (l line : text) : Prop :=
  (exists u v, l = u ++ line ++ v /\ (forall a, In a (u ++ v) -> white a)) /\
  (forall a r, line = a :: r -> ~ white a) /\ (forall a r, line = r ++ [a] -> ~ white a).
