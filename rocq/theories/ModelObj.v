(** * Clauses as objects

    A second model of the learning searches in which clauses are objects that are allocated and
    deleted: BuildFormula allocates one for each line (Formula.cc:98), analyzeConflict allocates
    resolvents and reasons and deletes them (Formula.cc:1036-1069), CLAUSELIST is a vector of
    pointers.  It follows ModelLearn.v, ModelSearch.v and ModelBuild.v, whose functions it uses
    where no object is allocated, deleted or used by its address.

    An object is its ATOM_LIST.  The fields NumUnAss, LEVEL and WATCHED are kept in the state
    for the clauses of CLAUSELIST, as in the other model, and WATCHED of a resolvent is an argument. *)

From Verif Require Import Spec Outcome State ModelCounter ModelHeur ModelLearn ModelWatch ModelSearch ModelBuild.

(** [omem]: the objects that exist; [obrk]: the addresses from here on have never been used
    (addresses are not reused); [olist]: CLAUSELIST. *)
Record objs := mkObjs { omem : nat -> option clause; obrk : nat; olist : list nat }.
Definition no_objs : objs := mkObjs (fun _ => None) 0 [].

Definition oload (os : objs) (p : nat) : outcome clause :=
  match omem os p with Some C => Ok C | None => Undef BadPtr end.
Definition onew (os : objs) (C : clause) : nat * objs :=
  (obrk os, mkObjs (updn (omem os) (obrk os) (Some C)) (S (obrk os)) (olist os)).
Definition ofree (os : objs) (p : nat) : outcome objs :=
  do* oload os p in Ok (mkObjs (updn (omem os) p None) (obrk os) (olist os)).
(** CLAUSELIST.push_back *)
Definition opush (os : objs) (p : nat) : objs := mkObjs (omem os) (obrk os) (olist os ++ [p]).
(** CLAUSELIST[n] *)
Definition oget (os : objs) (n : nat) : outcome nat :=
  match nth_error (olist os) n with Some p => Ok p | None => Undef OobClause end.

(** The reason, Formula.cc:1030-1051: a new object, or one of CLAUSELIST. *)
Definition o_reason (s : state) (os : objs) (l : lit) : outcome (nat * objs) :=
  do* chk (tr s) l in
  match CID (tr s) (lvar l) (lval l) with
  | RDec =>
      let i := lidx (tr s) l in
      if i <? 0 then Undef OobStack
      else match nth_error (DST (tr s)) (Z.to_nat i) with
           | Some f => Ok (onew os [mkLit (lvar f) (lval f) true; mkLit (lvar f) (lval f) false])
           | None => Undef OobStack
           end
  | REnt => Ok (onew os (map (fun i => mkLit (lvar l) i true) (zrange 0 (DOM (tr s) (lvar l)))))
  | RCls n => let* p := oget os n in Ok (p, os)
  | RUndef => Undef OobClause
  end.

(** analyzeConflict, Formula.cc:997-1078: [p] is the clause, [temp] is freeClauseAfterUse.
    Returns the learnt clause (a pointer) and WATCHED[1] of it. *)
Fixpoint o_analyze (fuel : nat) (c : cfg) (s : state) (os : objs) (p : nat) (a b : lit) (temp : bool)
  : outcome ((state * objs) * (nat * lit)) :=
  match fuel with
  | O => OutOfFuel
  | S fuel' =>
      let* ls := oload os p in
      let* q := potent c s ls b in
      if q then
        let* s := learn_clause c s ls a b in
        Ok ((s, opush os p), (p, b))
      else
        let* last :=
          if watch c then Ok a
          else let* i := max_lit (tr s) ls in
               match nth_error ls i with
               | Some l => Ok l
               | None => Undef OobClause
               end in
        let* x := o_reason s os last in
        let (rp, os) := x in
        let* r := oload os rp in
        let res := resolve ls last r in
        let (np, os) := onew os res in
        let* w := if watch c then assign_watched (tr s) res else Ok (nolit, nolit) in
        let* os := if temp then ofree os p else Ok os in
        let* os := match CID (tr s) (lvar last) (lval last) with
                   | RCls _ => Ok os
                   | _ => ofree os rp
                   end in
        o_analyze fuel' c s os np (fst w) (snd w) true
  end.

(** The conflict branches, Formula.cc:1473-1500 and 1380-1415: the learnt clause is used through
    the pointer that was returned. *)
Definition o_conflict (fuel : nat) (c : cfg) (r rc : Z) (x : state * objs) : outcome ((state * objs) * Z) :=
  let (s, os) := x in
  let* p := oget os (confcl s) in
  let* res := o_analyze fuel c s os p (w0 s (confcl s)) (w1 s (confcl s)) false in
  let '((s, os), (q, b)) := res in
  let* learned := oload os q in
  let* lv := if watch c then
               if Nat.ltb 1 (length learned) then do* chk (tr s) b in Ok (llev (tr s) b) else Ok 0
             else backtrack_level s learned in
  let s := set_level s lv in
  let s := set_backtracks s (backtracks s + 1) in
  let s := set_conflict s false in
  let undo s lev := if watch c then wundo_theory s lev else undo_theory c s lev in
  if backtracks s =? rc then
    let* s := undo s 0 in
    let rc := backtracks s + r in
    let s := set_restarts s (restarts s + 1) in
    let s := if level s =? 0 then only_last s else set_ulist s [] in
    Ok ((set_level s 0, os), rc)
  else
    let* s := undo s (level s) in
    Ok ((only_last s, os), rc).

(** NonChronoBacktrack and WatchedLiterals, Formula.cc:1447-1529 and 1354-1444. *)
Fixpoint o_loop (fuel : nat) (c : cfg) (clk : nat -> bool) (r rc : Z) (x : state * objs)
  : outcome (verdict * (state * objs)) :=
  match fuel with
  | O => OutOfFuel
  | S fuel' =>
      let (s, os) := x in
      let (late, s) := check_time clk s in
      if late then Ok (TIMEOUT, (s, os))
      else if conflict s && (level s =? 0) then Ok (UNSAT, (s, os))
      else
        let* q := if conflict s then o_conflict fuel c r rc (s, os) else Ok ((s, os), rc) in
        let '((s, os), rc) := q in
        let* s := match ulist s with
                  | [] => Ok s
                  | _ => if watch c then wunit_propagation fuel c s else unit_propagation fuel c s
                  end in
        if conflict s then o_loop fuel' c clk r rc (s, os)
        else
          let* q := if watch c then choose_wl c s else choose_nc c s in
          let (s, l) := q in
          if lvar l =? -1 then Ok (SAT, (s, os))
          else
            let* s := if watch c then wl_decide c s l else nc_decide c s l in
            o_loop fuel' c clk r rc (s, os)
  end.

(** BuildFormula, Formula.cc:96-208: every line gets an object; that of a domain line is not used
    (and never deleted). *)
Definition o_add_item (c : cfg) (x : state * objs) (i : item) : outcome (state * objs) :=
  let (s, os) := x in
  let* s := add_item c s i in
  match i with
  | IDom _ => Ok (s, snd (onew os []))
  | ICls ls => let (p, os) := onew os ls in Ok (s, opush os p)
  end.

(** SolveFinite with -solvenc, SolveFinite.cc:21-94. *)
Definition o_solve (fuel : nat) (c : cfg) (clk : nat -> bool) (r : Z) (p : problem) : outcome ((report * state) * objs) :=
  let* x := foldM (o_add_item c) (items_of p) (init_state, no_objs) in
  let* q := o_loop fuel c clk r r x in
  let '(v, (s, os)) := q in
  let mk md ver := mkReport v (decisions s) (units s) (backtracks s) (entails s) (NV (tr s))
                     (Z.of_nat (length (cl s))) (restarts s) md ver in
  match v with
  | SAT => let* b := verify_model s in Ok ((mk (print_model s) (Some b), s), os)
  | _ => Ok ((mk [] None, s), os)
  end.
