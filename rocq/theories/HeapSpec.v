(** * What linked watch lists should look like

    [mem h p] is the record at the address [p], [top h l] the head of the list of the literal [l]
    (ModelHeap.v). *)

From Verif Require Import Spec Outcome State ModelHeap.

(** The first of [ps], or [nxt]; the last of [ps], or [prv]. *)
Definition first_or (ps : list nat) (nxt : option nat) : option nat := match ps with [] => nxt | p :: _ => Some p end.
Definition last_or (prv : option nat) (ps : list nat) : option nat := fold_left (fun _ p => Some p) ps prv.

(** The records at the addresses [ps] are linked in both directions, carry the clause numbers
    [ns], come after [prv] and before [nxt]. *)
Fixpoint linked (m : nat -> option vrec) (prv : option nat) (ps ns : list nat) (nxt : option nat) : Prop :=
  match ps, ns with
  | [], [] => True
  | p :: ps', n :: ns' => m p = Some (mkRec n (first_or ps' nxt) prv) /\ linked m (Some p) ps' ns' nxt
  | _, _ => False
  end.

(** The lists [W] are stored at the addresses [A]: each is a doubly linked list, no record is on
    two lists or twice on one, and every record that exists is on one. *)
Definition stored (h : heap) (A W : lit -> list nat) : Prop :=
  (forall l, top h l = first_or (A l) None /\ linked (mem h) None (A l) (W l) None) /\
  (forall l, NoDup (A l)) /\
  (forall l l' p, In p (A l) -> In p (A l') -> l = l') /\
  (forall p, mem h p <> None -> (p < brk h)%nat /\ exists l, In p (A l)).
Definition holds_lists (h : heap) (W : lit -> list nat) : Prop := exists A, stored h A W.
