(** * Theorems about the linked watch lists

    [h_solve] is the run of -solvenc -wl in which the watch lists are doubly linked lists of
    records that are allocated and deleted (ModelHeap.v); its result is the printed report, the
    final state and the final heap.  [Undef BadPtr] would be an access to a record that does not
    exist or was deleted, or its second deletion. *)

From Verif Require Import Spec Outcome State ModelCounter ModelHeur ModelLearn ModelSearch ModelBuild ModelHeap HeapSpec Observe HeapRuns Cases.

(** ** C63: the records *)

Theorem C63_report fuel c clk r p : wf p -> no_repeats p -> watch c = true -> lenient c = true -> heur c <> BK ->
  (let* q := h_solve fuel c clk r p in Ok (fst q)) = (let* q := solve fuel NonChrono c clk r p in Ok (fst q)).
Proof. intros W N Hw Le NB. apply heap_report. exact (conj W (conj N (conj Hw (conj Le NB)))). Qed.
Print Assumptions C63_report.

(** No record is used after it was deleted, none is deleted twice, and the run ends. *)
Theorem C63_safe c clk r p : wf p -> no_repeats p -> watch c = true -> lenient c = true -> heur c <> BK ->
  (exists N rep, forall fuel, (N <= fuel)%nat -> exists x, h_solve fuel c clk r p = Ok (rep, x)) /\
  (forall fuel u, h_solve fuel c clk r p <> Undef u).
Proof. intros W N Hw Le NB. assert (H : wl_case p c) by exact (conj W (conj N (conj Hw (conj Le NB)))). split; [apply heap_total; auto|intros; apply heap_safe; auto]. Qed.
Print Assumptions C63_safe.

(** Whenever the run stops (the clock may stop it at any check), the list of a literal is a well
    formed linked list that has one record for each clause watched at that literal, and no other
    record exists. *)
Theorem C63_lists fuel c clk r p rep s h : wf p -> no_repeats p -> watch c = true -> lenient c = true -> heur c <> BK ->
  h_solve fuel c clk r p = Ok (rep, (s, h)) ->
  exists W, holds_lists h W /\ forall l, NoDup (W l) /\
    forall n, In n (W l) <-> exists C, nth_error (cl s) n = Some C /\ (l = w0 s n \/ (2 <= length C)%nat /\ l = w1 s n).
Proof. intros W N Hw Le NB. apply heap_lists. exact (conj W (conj N (conj Hw (conj Le NB)))). Qed.
Print Assumptions C63_lists.

(** The clause numbers on the list of a literal, from the front. *)
Fixpoint numbers (fuel : nat) (h : heap) (p : option nat) : list nat :=
  match p, fuel with
  | Some a, S fuel' => match mem h a with Some r => c_num r :: numbers fuel' h (r_next r) | None => [] end
  | _, _ => []
  end.

(** The records that exist, and how many were ever allocated. *)
Definition alive (h : heap) : nat := length (filter (fun p => match mem h p with Some _ => true | None => false end) (seq 0 (brk h))).
Definition records (o : outcome (report * hst)) (ls : list lit) : option (verdict * nat * nat * list (list nat)) :=
  match o with Ok (rep, (_, h)) => Some (r_verdict rep, alive h, brk h, map (fun l => numbers 100 h (top h l)) ls) | _ => None end.

(** The satisfiable problem: 20 records at the start; in the run 17 are added and 14 deleted. *)
Example C63_case :
  records (h_solve 300 (wl VSIDS) (fun _ => true) 3 p_sat) [vne 1 1; veq 1 1; veq 2 1] =
    Some (TIMEOUT, 20%nat, 20%nat, [[9; 8; 7; 6]; [5; 4; 3; 2; 1; 0]; [4; 1]]%nat) /\
  records (h_solve 300 (wl VSIDS) never 3 p_sat) [vne 1 1; veq 1 1; veq 2 1] =
    Some (SAT, 23%nat, 37%nat, [[8; 9; 11; 10]; []; [4; 1]]%nat).
Proof. split; vm_compute; reflexivity. Qed.

(** ** C64: the destructor of Variable

    The text of the destructor deletes all records of a list and then the first one again.  No
    object of type Variable is ever deleted, so this does not happen in a run. *)

Theorem C64_destructor h W l : holds_lists h W ->
  h_destroy h l = match W l with [] => Ok h | _ => Undef BadPtr end.
Proof. intro H. destruct (W l) eqn:E; [eapply destroy_empty; eauto|eapply destroy_nonempty; eauto; congruence]. Qed.
Print Assumptions C64_destructor.

Theorem C64_destructor_refuted : exists p rep s h, wf p /\ no_repeats p /\
  h_solve 300 (wl VSIDS) never 0 p = Ok (rep, (s, h)) /\ h_destroy h (vne 1 1) = Undef BadPtr.
Proof.
  exists p_sat. pose proof p_sat_fine as (F1 & F2).
  assert (E : match h_solve 300 (wl VSIDS) never 0 p_sat with
              | Ok (_, (_, h)) => match h_destroy h (vne 1 1) with Undef BadPtr => true | _ => false end
              | _ => false end = true) by (vm_compute; reflexivity).
  destruct (h_solve 300 (wl VSIDS) never 0 p_sat) as [[rep [s h]]| |]; try discriminate. exists rep, s, h.
  split; [exact F1|]. split; [exact F2|]. split; [reflexivity|]. destruct (h_destroy h (vne 1 1)) as [|[]|]; try discriminate. reflexivity.
Qed.
Print Assumptions C64_destructor_refuted.
