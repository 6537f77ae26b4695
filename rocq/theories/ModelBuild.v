(** * Building the theory and running a solver

    Models the part of Formula::BuildFormula (src/Formula.cc:63-214) that comes after the
    scanning of a line, and SolveFinite (src/SolveFinite.cc:21-94).  The character-level
    scanning is in ModelRead.v. *)

From Coq Require Import Floats.SpecFloat.
From Verif Require Import Spec Outcome State ModelCounter ModelHeur ModelLearn ModelWatch
  ModelSearch.

(** The effect of one line of the input file once it is scanned: a domain line, or a clause
    line with its literals (comment and problem lines have no effect). *)
Inductive item := IDom (size : Z) | ICls (c : clause).

(** The state after Formula::Formula (Formula.cc:40-60) and Formula.cc:78-80.  The Variable
    constructor (Variable.cc:36-66) fixes the initial values of the arrays; as the model keeps
    them as functions they are given here once and for all.  CONFLICTINGCLAUSE starts at -1;
    it is not read before being set (0 here). *)
Definition init_trail : trail :=
  mkTrail 0 (fun _ => 0) (fun v => if v =? 0 then 0 else -1) (fun _ _ => Un)
    (fun _ _ => -10) (fun _ _ => -1) (fun _ _ => RUndef) [].
Definition init_state : state :=
  mkState init_trail [] (fun _ => 0) (fun _ => -1) (fun _ => nolit) (fun _ => nolit)
    (fun _ => 0) (fun _ => f64_zero) (fun _ => []) (fun _ => [])
    0 [] RDec false 0 0 0 0 0 0 0.

(** A domain line: VARLIST.push_back(new Variable(var, val)), Formula.cc:112-117.  The
    variable's number in the file is stored but never used; its position counts. *)
Definition add_domain (s : state) (size : Z) : outcome state :=
  if size <? 0 then Undef BadAlloc
  else
    let t := tr s in
    Ok (set_tr s (mkTrail (NV t + 1) (upd1 (DOM t) (NV t + 1) size) (VAL t) (ASG t) (ALEV t)
                    (AIDX t) (CID t) (DST t))).

(** One literal of a clause line, Formula.cc:153-176 ([n] is clause_num).  VARLIST[var] is
    touched only by the branches that are taken: with WATCH and the lazy heuristic there is
    no access. *)
Definition add_lit (c : cfg) (n : nat) (s : state) (l : lit) : outcome state :=
  let* s :=
    match heur c with
    | VSIDS => do* chk (tr s) l in Ok (bump s l)
    | VSIDS_pos =>
        if leq l then do* chk (tr s) l in Ok (bump s l)
        else if (0 <=? lvar l) && (lvar l <=? NV (tr s))
             then Ok (bump_others s (lvar l) (lval l)) else Undef OobAtom
    | BK => do* chk (tr s) l in Ok (set_cnt s (updl (cnt s) l (cnt s l + 1)))
    | Lazy => Ok s
    end in
  if watch c then Ok s
  else do* chk (tr s) l in Ok (set_rec s (updl (rec s) l (rec s l ++ [n]))).

(** A clause line, Formula.cc:119-208. *)
Definition add_clause (c : cfg) (s : state) (ls : clause) : outcome state :=
  let n := length (cl s) in
  let* s := foldM (add_lit c n) ls s in
  let s := set_cl s (cl s ++ [ls]) in
  let s := set_num s (updn (num s) n (Z.of_nat (length ls))) in
  let s := set_clev s (updn (clev s) n (-1)) in
  let s := if Nat.eqb (length ls) 1 then set_ulist s (ulist s ++ [n]) else s in
  if watch c then
    match ls with
    | [] => Undef OobClause
    | a :: ls' =>
        let s := set_w0 s (updn (w0 s) n a) in
        let* s := add_record s a n in
        match ls' with
        | [] => Ok s
        | b :: _ =>
            let s := set_w1 s (updn (w1 s) n b) in
            add_record s b n
        end
    end
  else Ok s.

Definition add_item (c : cfg) (s : state) (i : item) : outcome state :=
  match i with
  | IDom d => add_domain s d
  | ICls ls => add_clause c s ls
  end.

Definition build (c : cfg) (is : list item) : outcome state :=
  foldM (add_item c) is init_state.

(** The documented layout: domain lines, then clause lines. *)
Definition items_of (p : problem) : list item :=
  map IDom (doms p) ++ map ICls (clauses p).

(** PrintModel, Formula.cc:217-224: the equalities on the decision stack. *)
Definition print_model (s : state) : list lit := filter leq (DST (tr s)).

(** What SolveFinite prints (SolveFinite.cc:78-93): the verdict, the statistics of PrintInfo
    (Formula.cc:227-240), and for SAT the model and the result of verifyModel. *)
Record report := mkReport {
  r_verdict : verdict;
  r_decisions : Z; r_units : Z; r_backtracks : Z; r_entails : Z;
  r_variables : Z; r_clauses : Z; r_restarts : Z;
  r_model : list lit;        (* empty unless SAT *)
  r_verified : option bool   (* None unless SAT *)
}.

Inductive mode := Chrono | NonChrono.

(** The call of the search, SolveFinite.cc:45-68. *)
Definition run_search (fuel : nat) (m : mode) (c : cfg) (clk : nat -> bool) (r : Z) (s : state)
  : outcome (verdict * state) :=
  match m with
  | Chrono => chrono fuel c clk s 0
  | NonChrono => if watch c then wl_search fuel c clk r s else nc_search fuel c clk r s
  end.

(** SolveFinite after BuildFormula. *)
Definition solve_state (fuel : nat) (m : mode) (c : cfg) (clk : nat -> bool) (r : Z) (s : state)
  : outcome (report * state) :=
  let* q := run_search fuel m c clk r s in
  let (v, s) := q in
  let mk md ver := mkReport v (decisions s) (units s) (backtracks s) (entails s) (NV (tr s))
                     (Z.of_nat (length (cl s))) (restarts s) md ver in
  match v with
  | SAT => let* b := verify_model s in Ok (mk (print_model s) (Some b), s)
  | _ => Ok (mk [] None, s)
  end.

Definition solve (fuel : nat) (m : mode) (c : cfg) (clk : nat -> bool) (r : Z) (p : problem)
  : outcome (report * state) :=
  let* s := build c (items_of p) in
  solve_state fuel m c clk r s.
