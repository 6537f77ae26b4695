(** * Theorems about the memory of the second solver

    [m_solve] is the run of bitvec in which the watch lists are doubly linked lists of records and
    the clauses are objects, both allocated, reached by pointers and deleted (ModelBitMem.v).
    [Undef BadPtr] would be an access to a record or a clause that does not exist or was deleted, or
    its second deletion.  [bsolve] is the run in which both are plain lists (ModelBit.v), where the
    state that has the same clause twice in CLAUSELIST is left out as [Undef Aliased]. *)

From Coq Require Import Floats.SpecFloat.
From Verif Require Import Spec Outcome State ModelHeur ModelSearch ModelBuild ModelHeap HeapSpec Base Heap Observe Cases
  ModelBit ModelBitMem BitMemSpec BitSpec BitMemFacts.

(** ** C79: records and clauses *)

Theorem C79_report fuel c clk r p : bsolve fuel c clk r p <> Undef Aliased ->
  (let* q := m_solve fuel c clk r p in Ok (fst q)) = (let* q := bsolve fuel c clk r p in Ok (fst q)).
Proof. exact (mem_report fuel c clk r p). Qed.
Print Assumptions C79_report.

Theorem C79_safe fuel c clk r p : bsolve fuel c clk r p <> Undef Aliased -> m_solve fuel c clk r p <> Undef BadPtr.
Proof. exact (mem_safe fuel c clk r p). Qed.
Print Assumptions C79_safe.

(** Without restarts a run ends with the right answer, or indexes beyond the end of an array (C67);
    nothing else goes wrong, in particular no pointer. *)
Theorem C79_outcome p cf clk r : wf p -> fits64 p -> r <= 0 -> blen cf = true ->
  (forall fuel u, m_solve fuel cf clk r p = Undef u -> u = OobAtom) /\
  exists N, (forall fuel, (N <= fuel)%nat -> m_solve fuel cf clk r p = Undef OobAtom) \/
    exists rep, (forall fuel, (N <= fuel)%nat -> exists x, m_solve fuel cf clk r p = Ok (rep, x)) /\
      match br_verdict rep with
      | SAT => (forall v, 1 <= v <= nvars p -> exists m d, In (v, m) (br_model rep) /\ has_value m d) /\
          (forall a, picks (br_model rep) a -> is_model p a) /\ br_verified rep = Some true
      | UNSAT => ~ satisfiable p
      | TIMEOUT => exists j, clk j = true
      end.
Proof. exact (mem_outcome p cf clk r). Qed.
Print Assumptions C79_outcome.

(** At the end every record is on the list of one variable, and every Clause object but the empty
    ones of the domain lines is in CLAUSELIST.  The intermediate resolvents are deleted; the clause of
    a domain line is not (Formula.cc:96). *)
Theorem C79_memory fuel cf clk r p rep x : wf p -> fits64 p -> bsolve fuel cf clk r p <> Undef Aliased ->
  m_solve fuel cf clk r p = Ok (rep, x) ->
  exists A W cs u0 u1 leak, bstored (mh x) A W /\
    objects x cs u0 u1 (map (fun a => (a, o_empty)) leak) /\
    (forall c, In c cs -> forall a, is_model p a -> set_clause_holds a c) /\
    Z.of_nat (length cs) = Z.of_nat (length (clauses p)) + br_backtracks rep /\ Z.of_nat (length leak) = nvars p.
Proof. exact (mem_clauses fuel cf clk r p rep x). Qed.
Print Assumptions C79_memory.

(** The same state as in the model with lists. *)
Theorem C79_state fuel c clk r p rep s : bsolve fuel c clk r p = Ok (rep, s) ->
  exists x, m_solve fuel c clk r p = Ok (rep, x) /\ in_memory s x (bnv s).
Proof. exact (mem_final fuel c clk r p rep s). Qed.
Print Assumptions C79_state.

(** The records that exist and that were ever allocated, the same for clauses, CLAUSELIST, and the
    clause numbers on the lists of some variables. *)
Definition living {A} (m : nat -> option A) (n : nat) : nat :=
  length (filter (fun p => match m p with Some _ => true | None => false end) (seq 0 n)).
Fixpoint on_list (fuel : nat) (h : bheap) (p : option nat) : list nat :=
  match p, fuel with
  | Some a, S f => match bmem h a with Some r => c_num r :: on_list f h (r_next r) | None => [] end
  | _, _ => []
  end.
Definition memory (o : outcome (breport * mst)) (vs : list Z) : option (verdict * (nat * nat) * (nat * nat) * list nat * list (list nat)) :=
  match o with
  | Ok (rep, x) => Some (br_verdict rep, (living (bmem (mh x)) (bbrk (mh x)), bbrk (mh x)),
                         (living (mo x) (mbrk x), mbrk x), mcl x, map (fun v => on_list 100 (mh x) (btop (mh x) v)) vs)
  | _ => None
  end.

(** The satisfiable problem: of 32 records 22 are left; 4 Clause objects are lost, 11 in CLAUSELIST.
    The other: of 44 Clause objects 15 were resolvents and are deleted, 4 are lost, 25 are left. *)
Example C79_case :
  memory (m_solve 300 (mkBcfg true true) never 0 p_sat) [1; 2] =
    Some (SAT, (22, 32), (15, 15), [4; 5; 6; 7; 8; 9; 10; 11; 12; 13; 14], [[10; 9; 8; 7; 6]; [5; 4; 3; 2; 1; 0]])%nat /\
  memory (m_solve 300 (mkBcfg false true) never 0 p_unsat) [4] =
    Some (UNSAT, (49, 53), (29, 44),
          [4; 5; 6; 7; 8; 9; 10; 11; 12; 13; 14; 15; 16; 17; 18; 19; 20; 21; 23; 26; 28; 33; 35; 41; 43],
          [[24; 17; 16; 14; 11; 10; 8; 5; 4; 2]])%nat.
Proof. split; vm_compute; reflexivity. Qed.

(** With restarts also. *)
Example C79_restarted :
  memory (m_solve 300 (mkBcfg true true) never 2 p_unsat) [2] =
    Some (UNSAT, (44, 47), (27, 40),
          [4; 5; 6; 7; 8; 9; 10; 11; 12; 13; 14; 15; 16; 17; 18; 19; 20; 21; 23; 29; 31; 37; 39],
          [[18; 22; 16; 15; 12; 10; 9; 6; 4; 3; 0]])%nat.
Proof. vm_compute. reflexivity. Qed.

(** If moreover at most one clause is about one variable only, nothing at all goes wrong. *)
Theorem C79_lone p cf clk r : wf p -> fits64 p -> lone p -> r <= 0 -> blen cf = true ->
  (exists N rep, forall fuel, (N <= fuel)%nat -> exists x, m_solve fuel cf clk r p = Ok (rep, x)) /\
  (forall fuel u, m_solve fuel cf clk r p <> Undef u).
Proof. exact (mem_lone p cf clk r). Qed.
Print Assumptions C79_lone.

(** With restarts a clause can be learned that is there already: then CLAUSELIST has the same pointer
    twice.  The answer is right here. *)
Theorem C79_twice_refuted : exists p, wf p /\ fits64 p /\ lone p /\ bsolve 300 (mkBcfg false true) never 2 p = Undef Aliased /\
  exists rep x, m_solve 300 (mkBcfg false true) never 2 p = Ok (rep, x) /\ br_verdict rep = SAT /\ br_verified rep = Some true /\
    ~ NoDup (mcl x).
Proof. exact mem_twice. Qed.
Print Assumptions C79_twice_refuted.

(** The destructor of Variable (never called) deletes the records of the list and no others. *)
Theorem C79_destructor h A W v : bstored h A W ->
  exists h', r_destroy h v = Ok h' /\
    (forall p, In p (A v) -> bmem h' p = None) /\ (forall p, ~ In p (A v) -> bmem h' p = bmem h p).
Proof. exact (mem_destroy h A W v). Qed.
Print Assumptions C79_destructor.

Example C79_destroyed :
  match m_solve 300 (mkBcfg true true) never 0 p_sat with
  | Ok (_, x) => match r_destroy (mh x) 1 with
                 | Ok h => living (bmem h) (bbrk h) = 17%nat /\ on_list 100 h (btop h 2) = [5; 4; 3; 2; 1; 0]%nat
                 | _ => False
                 end
  | _ => False
  end.
Proof. vm_compute. auto. Qed.
