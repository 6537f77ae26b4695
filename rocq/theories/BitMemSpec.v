(** * What the memory of the second solver should look like

    [bmem h p] is the record at the address [p], [btop h v] the head of the list of the variable
    [v], [mo x a] the Clause object at the address [a] and [mcl x] CLAUSELIST (ModelBitMem.v). *)

From Verif Require Import Spec Outcome State ModelHeap HeapSpec ModelBit ModelBitMem.

(** The lists [W] of clause numbers are stored at the addresses [A]: each is a doubly linked list, no
    record is on two lists or twice on one, and every record that exists is on one. *)
Definition bstored (h : bheap) (A W : Z -> list nat) : Prop :=
  (forall v, btop h v = first_or (A v) None /\ linked (bmem h) None (A v) (W v) None) /\
  (forall v, NoDup (A v)) /\
  (forall v v' p, In p (A v) -> In p (A v') -> v = v') /\
  (forall p, bmem h p <> None -> (p < bbrk h)%nat /\ exists v, In p (A v)).

(** CLAUSELIST has the clauses [cs] with the watched literals [w0] and [w1], each in an object of its
    own; the other objects that exist are [ex]. *)
Definition objects (x : mst) (cs : list bclause) (w0 w1 : nat -> blit) (ex : list (nat * cobj)) : Prop :=
  NoDup (mcl x ++ map fst ex) /\
  length (mcl x) = length cs /\
  (forall n a c, nth_error (mcl x) n = Some a -> nth_error cs n = Some c -> mo x a = Some (mkObj c (w0 n) (w1 n))) /\
  (forall a o, In (a, o) ex -> mo x a = Some o) /\
  (forall a, mo x a <> None -> (a < mbrk x)%nat /\ In a (mcl x ++ map fst ex)).

(** The memory is that of the state [s] of the model with lists; besides there are [k] empty clauses
    to which nothing points any more. *)
Definition in_memory (s : bst) (x : mst) (k : Z) : Prop :=
  (exists A, bstored (mh x) A (brec s)) /\
  exists leak, objects x (bcl s) (bw0 s) (bw1 s) (map (fun a => (a, o_empty)) leak) /\ Z.of_nat (length leak) = k.
