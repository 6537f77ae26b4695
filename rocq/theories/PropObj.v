(** * Theorems about the clause objects

    [o_solve] is the run of -solvenc, with or without -wl, in which clauses are objects that are
    allocated and deleted (ModelObj.v); its result is the printed report, the final state and the
    objects.  [Undef BadPtr] would be an access to an object that does not exist or was deleted,
    or its second deletion. *)

From Verif Require Import Spec Outcome State ModelCounter ModelHeur ModelLearn ModelSearch ModelBuild ModelObj ObjSpec Observe Runs Obj Cases.

(** ** C65: the objects *)

Theorem C65_run fuel c clk r p : wf p -> no_repeats p -> lenient c = true -> (watch c = true -> heur c <> BK) ->
  (let* q := o_solve fuel c clk r p in Ok (fst q)) = solve fuel NonChrono c clk r p.
Proof. intros W N Le NB. apply obj_run; split; auto. Qed.
Print Assumptions C65_run.

(** No object is used after it was deleted, none is deleted twice, and the run ends. *)
Theorem C65_safe c clk r p : wf p -> no_repeats p -> lenient c = true -> (watch c = true -> heur c <> BK) ->
  (exists N q, forall fuel, (N <= fuel)%nat -> exists os, o_solve fuel c clk r p = Ok (q, os)) /\
  (forall fuel u, o_solve fuel c clk r p <> Undef u).
Proof. intros W N Le NB. split; [apply obj_total; split; auto|intros; apply obj_safe; split; auto]. Qed.
Print Assumptions C65_safe.

(** Whenever the run stops (the clock may stop it at any check), CLAUSELIST has one object for
    each clause, no object twice, and the only other objects that exist are those allocated for
    the domain lines: every resolvent and every reason made up on the way has been deleted, except
    the clauses that were learnt. *)
Theorem C65_owned fuel c clk r p rep s os : wf p -> no_repeats p -> lenient c = true -> (watch c = true -> heur c <> BK) ->
  o_solve fuel c clk r p = Ok ((rep, s), os) ->
  exists L, owned os L (cl s) /\ length L = length (doms p).
Proof. intros W N Le NB. apply obj_owned; split; auto. Qed.
Print Assumptions C65_owned.

(** The objects that exist, those ever allocated, and CLAUSELIST. *)
Definition o_alive (os : objs) : nat := length (filter (fun p => match omem os p with Some _ => true | None => false end) (seq 0 (obrk os))).
Definition objects (o : outcome ((report * state) * objs)) : option (verdict * nat * nat * list nat) :=
  match o with Ok ((rep, _), os) => Some (r_verdict rep, o_alive os, obrk os, olist os) | _ => None end.

(** The satisfiable problem has 4 domain lines and 10 clauses; two clauses are learnt, one
    resolvent is deleted.  The unsatisfiable one has 4 domain lines and 18 clauses; 6 clauses are learnt and 46
    resolvents and reasons are deleted. *)
Example C65_case :
  objects (o_solve 300 (wl VSIDS) (fun _ => true) 3 p_sat) = Some (TIMEOUT, 14, 14, seq 4 10)%nat /\
  objects (o_solve 300 (wl VSIDS) never 3 p_sat) = Some (SAT, 16, 17, seq 4 11 ++ [16])%nat /\
  objects (o_solve 300 (nc VSIDS_pos) never 3 p_unsat) = Some (UNSAT, 28, 74, seq 4 18 ++ [27; 39; 45; 56; 67; 73])%nat.
Proof. repeat split; vm_compute; reflexivity. Qed.
