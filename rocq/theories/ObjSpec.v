(** * What the clause objects should look like

    [omem os p] is the clause at the address [p], [olist os] the vector CLAUSELIST of addresses
    (ModelObj.v). *)

From Verif Require Import Spec Outcome State ModelObj.

(** The n-th pointer points to the n-th of the clauses [cs]; no two pointers are equal; the
    objects that exist are those pointed to and those at the addresses [L]. *)
Definition owned (os : objs) (L : list nat) (cs : list clause) : Prop :=
  Forall2 (fun p C => omem os p = Some C) (olist os) cs /\
  NoDup (olist os ++ L) /\
  forall p, omem os p <> None <-> In p (olist os ++ L).
