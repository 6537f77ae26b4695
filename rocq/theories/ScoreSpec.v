(** * The VSIDS scores, as a function of the clauses *)

From Coq Require Import Floats.SpecFloat.
From Verif Require Import Spec Outcome State StepSpec.

(** IEEE binary64 arithmetic. *)
Definition one : spec_float := SFone 53 1024.
Definition two : spec_float := SFadd 53 1024 one one.
Definition plus_one (x : spec_float) : spec_float := SFadd 53 1024 x one.
Definition half (x : spec_float) : spec_float := SFdiv 53 1024 x two.

(** Does an occurrence of [x] count for [l]?  Plain VSIDS counts the literal itself; the positive
    version counts equalities only, and [v <> e] for every other value of [v]. *)
Definition counts_for (pos : bool) (l x : lit) : bool :=
  if pos then (lvar x =? lvar l) && (if leq x then lval x =? lval l else negb (lval x =? lval l))
  else lit_eqb l x.

Definition credit (pos : bool) (l : lit) (C : clause) (x : spec_float) : spec_float :=
  Nat.iter (length (filter (counts_for pos l) C)) plus_one x.

(** One for each occurrence in the input; each learned clause adds one for each of its
    occurrences, and then all scores are halved. *)
Definition score (pos : bool) (input learned : list clause) (l : lit) : spec_float :=
  fold_left (fun x C => half (credit pos l C x)) learned
            (credit pos l (concat input) (S754_zero false)).

(** The scores of a state of a run: its clauses are those of the input and the learned ones. *)
Definition scores_are (c : cfg) (p : problem) (s : state) : Prop :=
  exists learned, cl s = clauses p ++ learned /\
    (heur c = VSIDS -> forall l, declared p (lvar l) (lval l) -> vs s l = score false (clauses p) learned l) /\
    (heur c = VSIDS_pos -> forall v d, declared p v d ->
       vs s (mkLit v d true) = score true (clauses p) learned (mkLit v d true)).
