(** * Concrete problems and settings used by the examples *)

From Verif Require Import Spec Outcome State ModelBuild ModelSearch Observe.

Definition veq (v d : Z) : lit := mkLit v d true.
Definition vne (v d : Z) : lit := mkLit v d false.

(** The value 1 of variable 1 looks good (it occurs often) but leads to a conflict. *)
Definition p_sat : problem :=
  mkProblem [3; 3; 2; 4]
    (map (fun d => [veq 1 1; veq 2 d; veq 4 d; veq 3 0]) [0; 1; 2] ++ map (fun d => [veq 1 1; veq 2 d; vne 3 1]) [0; 1; 2] ++
     [[vne 1 1; veq 3 0; veq 4 2]; [vne 1 1; veq 3 0; vne 4 2]; [vne 1 1; vne 3 0; veq 4 2]; [vne 1 1; vne 3 0; vne 4 2]]).

(** The four variables differ pairwise and have three values: unsatisfiable. *)
Definition p_unsat : problem :=
  mkProblem [3; 3; 3; 3]
    (concat (map (fun d => [[vne 1 d; vne 2 d]; [vne 1 d; vne 3 d]; [vne 1 d; vne 4 d];
                            [vne 2 d; vne 3 d]; [vne 2 d; vne 4 d]; [vne 3 d; vne 4 d]]) [0; 1; 2])).

Definition never : nat -> bool := fun _ => false.
Definition at_check (k : nat) : nat -> bool := fun n => Nat.leb k n.

Definition nc (h : heuristic) : cfg := mkCfg h false true.
Definition wl (h : heuristic) : cfg := mkCfg h true true.

Definition verdict_of (o : outcome (report * state)) : option (verdict * Z * option bool) :=
  match o with Ok (rep, _) => Some (r_verdict rep, r_backtracks rep, r_verified rep) | _ => None end.
Definition model_of (o : outcome (report * state)) : list lit :=
  match o with Ok (rep, _) => r_model rep | _ => [] end.

Example p_sat_fine : wf p_sat /\ no_repeats p_sat.
Proof. split; [apply wf_dec|apply no_repeats_dec]; reflexivity. Qed.
Example p_unsat_fine : wf p_unsat /\ no_repeats p_unsat.
Proof. split; [apply wf_dec|apply no_repeats_dec]; reflexivity. Qed.

