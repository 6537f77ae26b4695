(** * The solver state

    Models the data members of Formula (src/Formula.h:41-77), Variable (src/Variable.h),
    Clause (src/Clause.h:42-47) and Literal (src/Literal.h:36-66). *)

From Coq Require Import Floats.SpecFloat.
From Verif Require Import Spec Outcome.

(** Value of an entry of ATOMASSIGN (src/Variable.h: 0 is none, 1 is =, -1 is !=):
    [Un] is 0, [Pos] is 1, [Neg] is -1. *)
Inductive aval := Un | Pos | Neg.

(** Value of CLAUSEID entries and of UNITCLAUSE: -1 (decision, also the initial value of
    UNITCLAUSE, Formula.cc:29), -2 (entailment), a clause id, -10 (unassigned). *)
Inductive reason := RDec | REnt | RCls (n : nat) | RUndef.

(** Global.h:33 *)
Inductive heuristic := BK | VSIDS | Lazy | VSIDS_pos.

Definition heur_eqb (a b : heuristic) : bool :=
  match a, b with
  | BK, BK | VSIDS, VSIDS | Lazy, Lazy | VSIDS_pos, VSIDS_pos => true
  | _, _ => false
  end.

(** The options that steer the search (Formula.h:75-77), and the switch [lenient] explained
    at [learn_clause]. *)
Record cfg := mkCfg { heur : heuristic; watch : bool; lenient : bool }.

(** The assignment: the fields of the Variable objects that describe it, as functions
    of variable and value, and DECSTACK.
    [NV] is VARLIST.size()-1; VARLIST[0] is the dummy of Formula.cc:79, with domain size 0. *)
Record trail := mkTrail {
  NV : Z;                    (* VARLIST.size() - 1 *)
  DOM : Z -> Z;              (* DOMAINSIZE *)
  VAL : Z -> Z;              (* VAL *)
  ASG : Z -> Z -> aval;      (* ATOMASSIGN *)
  ALEV : Z -> Z -> Z;        (* ATOMLEVEL *)
  AIDX : Z -> Z -> Z;        (* ATOMINDEX *)
  CID : Z -> Z -> reason;    (* CLAUSEID *)
  DST : list lit             (* DECSTACK, bottom first *)
}.

(** Functional update. *)
Definition upd1 {A} (f : Z -> A) (x : Z) (a : A) : Z -> A :=
  fun y => if y =? x then a else f y.
Definition upd2 {A} (f : Z -> Z -> A) (x d : Z) (a : A) : Z -> Z -> A :=
  fun y e => if (y =? x) && (e =? d) then a else f y e.
Definition updn {A} (f : nat -> A) (n : nat) (a : A) : nat -> A :=
  fun m => if Nat.eqb m n then a else f m.
Definition updl {A} (f : lit -> A) (l : lit) (a : A) : lit -> A :=
  fun m => if lit_eqb m l then a else f m.

(** Fields:
    - [tr]: assignment part of VARLIST, and DECSTACK
    - [cl]: CLAUSELIST[..]->ATOM_LIST
    - [num]: CLAUSELIST[..]->NumUnAss (Clause.h:44)
    - [clev]: CLAUSELIST[..]->LEVEL (Clause.h:45)
    - [w0]: CLAUSELIST[..]->WATCHED[0] (Clause.h:47)
    - [w1]: CLAUSELIST[..]->WATCHED[1]
    - [cnt]: ATOMCNTPOS / ATOMCNTNEG (Variable.h)
    - [vs]: VSIDS_SCORE / VSIDS_SCORE_NEG, IEEE doubles
    - [rec]: ATOMRECPOS / ATOMRECNEG
    - [wls]: ATOMWATCHPOS / ATOMWATCHNEG, front of the linked list first
    - [level]: LEVEL
    - [ulist]: UNITLIST, front first
    - [uclause]: UNITCLAUSE
    - [conflict]: CONFLICT
    - [confcl]: CONFLICTINGCLAUSE (meaningful only if CONFLICT)
    - [backtracks]: BACKTRACKS
    - [decisions]: DECISIONS
    - [units]: UNITS
    - [entails]: ENTAILS
    - [restarts]: RESTARTS
    - [tick]: number of clock checks made so far (not a field of the code; indexes the clock oracle) *)
Record state := mkState {
  tr : trail;
  cl : list clause;
  num : nat -> Z;
  clev : nat -> Z;
  w0 : nat -> lit;
  w1 : nat -> lit;
  cnt : lit -> Z;
  vs : lit -> spec_float;
  rec : lit -> list nat;
  wls : lit -> list nat;
  level : Z;
  ulist : list nat;
  uclause : reason;
  conflict : bool;
  confcl : nat;
  backtracks : Z;
  decisions : Z;
  units : Z;
  entails : Z;
  restarts : Z;
  tick : nat
}.

Definition set_tr (s : state) (x : trail) : state :=
  mkState x (cl s) (num s) (clev s) (w0 s) (w1 s) (cnt s) (vs s) (rec s) (wls s) (level s) (ulist s) (uclause s) (conflict s) (confcl s) (backtracks s) (decisions s) (units s) (entails s) (restarts s) (tick s).
Definition set_cl (s : state) (x : list clause) : state :=
  mkState (tr s) x (num s) (clev s) (w0 s) (w1 s) (cnt s) (vs s) (rec s) (wls s) (level s) (ulist s) (uclause s) (conflict s) (confcl s) (backtracks s) (decisions s) (units s) (entails s) (restarts s) (tick s).
Definition set_num (s : state) (x : nat -> Z) : state :=
  mkState (tr s) (cl s) x (clev s) (w0 s) (w1 s) (cnt s) (vs s) (rec s) (wls s) (level s) (ulist s) (uclause s) (conflict s) (confcl s) (backtracks s) (decisions s) (units s) (entails s) (restarts s) (tick s).
Definition set_clev (s : state) (x : nat -> Z) : state :=
  mkState (tr s) (cl s) (num s) x (w0 s) (w1 s) (cnt s) (vs s) (rec s) (wls s) (level s) (ulist s) (uclause s) (conflict s) (confcl s) (backtracks s) (decisions s) (units s) (entails s) (restarts s) (tick s).
Definition set_w0 (s : state) (x : nat -> lit) : state :=
  mkState (tr s) (cl s) (num s) (clev s) x (w1 s) (cnt s) (vs s) (rec s) (wls s) (level s) (ulist s) (uclause s) (conflict s) (confcl s) (backtracks s) (decisions s) (units s) (entails s) (restarts s) (tick s).
Definition set_w1 (s : state) (x : nat -> lit) : state :=
  mkState (tr s) (cl s) (num s) (clev s) (w0 s) x (cnt s) (vs s) (rec s) (wls s) (level s) (ulist s) (uclause s) (conflict s) (confcl s) (backtracks s) (decisions s) (units s) (entails s) (restarts s) (tick s).
Definition set_cnt (s : state) (x : lit -> Z) : state :=
  mkState (tr s) (cl s) (num s) (clev s) (w0 s) (w1 s) x (vs s) (rec s) (wls s) (level s) (ulist s) (uclause s) (conflict s) (confcl s) (backtracks s) (decisions s) (units s) (entails s) (restarts s) (tick s).
Definition set_vs (s : state) (x : lit -> spec_float) : state :=
  mkState (tr s) (cl s) (num s) (clev s) (w0 s) (w1 s) (cnt s) x (rec s) (wls s) (level s) (ulist s) (uclause s) (conflict s) (confcl s) (backtracks s) (decisions s) (units s) (entails s) (restarts s) (tick s).
Definition set_rec (s : state) (x : lit -> list nat) : state :=
  mkState (tr s) (cl s) (num s) (clev s) (w0 s) (w1 s) (cnt s) (vs s) x (wls s) (level s) (ulist s) (uclause s) (conflict s) (confcl s) (backtracks s) (decisions s) (units s) (entails s) (restarts s) (tick s).
Definition set_wls (s : state) (x : lit -> list nat) : state :=
  mkState (tr s) (cl s) (num s) (clev s) (w0 s) (w1 s) (cnt s) (vs s) (rec s) x (level s) (ulist s) (uclause s) (conflict s) (confcl s) (backtracks s) (decisions s) (units s) (entails s) (restarts s) (tick s).
Definition set_level (s : state) (x : Z) : state :=
  mkState (tr s) (cl s) (num s) (clev s) (w0 s) (w1 s) (cnt s) (vs s) (rec s) (wls s) x (ulist s) (uclause s) (conflict s) (confcl s) (backtracks s) (decisions s) (units s) (entails s) (restarts s) (tick s).
Definition set_ulist (s : state) (x : list nat) : state :=
  mkState (tr s) (cl s) (num s) (clev s) (w0 s) (w1 s) (cnt s) (vs s) (rec s) (wls s) (level s) x (uclause s) (conflict s) (confcl s) (backtracks s) (decisions s) (units s) (entails s) (restarts s) (tick s).
Definition set_uclause (s : state) (x : reason) : state :=
  mkState (tr s) (cl s) (num s) (clev s) (w0 s) (w1 s) (cnt s) (vs s) (rec s) (wls s) (level s) (ulist s) x (conflict s) (confcl s) (backtracks s) (decisions s) (units s) (entails s) (restarts s) (tick s).
Definition set_conflict (s : state) (x : bool) : state :=
  mkState (tr s) (cl s) (num s) (clev s) (w0 s) (w1 s) (cnt s) (vs s) (rec s) (wls s) (level s) (ulist s) (uclause s) x (confcl s) (backtracks s) (decisions s) (units s) (entails s) (restarts s) (tick s).
Definition set_confcl (s : state) (x : nat) : state :=
  mkState (tr s) (cl s) (num s) (clev s) (w0 s) (w1 s) (cnt s) (vs s) (rec s) (wls s) (level s) (ulist s) (uclause s) (conflict s) x (backtracks s) (decisions s) (units s) (entails s) (restarts s) (tick s).
Definition set_backtracks (s : state) (x : Z) : state :=
  mkState (tr s) (cl s) (num s) (clev s) (w0 s) (w1 s) (cnt s) (vs s) (rec s) (wls s) (level s) (ulist s) (uclause s) (conflict s) (confcl s) x (decisions s) (units s) (entails s) (restarts s) (tick s).
Definition set_decisions (s : state) (x : Z) : state :=
  mkState (tr s) (cl s) (num s) (clev s) (w0 s) (w1 s) (cnt s) (vs s) (rec s) (wls s) (level s) (ulist s) (uclause s) (conflict s) (confcl s) (backtracks s) x (units s) (entails s) (restarts s) (tick s).
Definition set_units (s : state) (x : Z) : state :=
  mkState (tr s) (cl s) (num s) (clev s) (w0 s) (w1 s) (cnt s) (vs s) (rec s) (wls s) (level s) (ulist s) (uclause s) (conflict s) (confcl s) (backtracks s) (decisions s) x (entails s) (restarts s) (tick s).
Definition set_entails (s : state) (x : Z) : state :=
  mkState (tr s) (cl s) (num s) (clev s) (w0 s) (w1 s) (cnt s) (vs s) (rec s) (wls s) (level s) (ulist s) (uclause s) (conflict s) (confcl s) (backtracks s) (decisions s) (units s) x (restarts s) (tick s).
Definition set_restarts (s : state) (x : Z) : state :=
  mkState (tr s) (cl s) (num s) (clev s) (w0 s) (w1 s) (cnt s) (vs s) (rec s) (wls s) (level s) (ulist s) (uclause s) (conflict s) (confcl s) (backtracks s) (decisions s) (units s) (entails s) x (tick s).
Definition set_tick (s : state) (x : nat) : state :=
  mkState (tr s) (cl s) (num s) (clev s) (w0 s) (w1 s) (cnt s) (vs s) (rec s) (wls s) (level s) (ulist s) (uclause s) (conflict s) (confcl s) (backtracks s) (decisions s) (units s) (entails s) (restarts s) x.

(** Literal helpers.  [neg] flips EQUAL. *)
Definition neg (l : lit) : lit := mkLit (lvar l) (lval l) (negb (leq l)).

(** Literal() (Literal.h:42). *)
Definition nolit : lit := mkLit (-1) (-1) false.

(** Bounds of the per-value arrays of VARLIST[v] (Variable.cc:36-66: arrays of DOMAINSIZE
    entries; VARLIST has NV+1 entries). *)
Definition in_range (t : trail) (v d : Z) : bool :=
  (0 <=? v) && (v <=? NV t) && (0 <=? d) && (d <? DOM t v).

Definition lit_ok (t : trail) (l : lit) : bool := in_range t (lvar l) (lval l).

Definition chk (t : trail) (l : lit) : outcome unit :=
  if lit_ok t l then Ok tt else Undef OobAtom.

(** Is a literal satisfied / falsified / unassigned by ATOMASSIGN. *)
Definition lit_true (t : trail) (l : lit) : bool :=
  match ASG t (lvar l) (lval l), leq l with
  | Pos, true | Neg, false => true
  | _, _ => false
  end.
Definition lit_un (t : trail) (l : lit) : bool :=
  match ASG t (lvar l) (lval l) with Un => true | _ => false end.
Definition lit_false (t : trail) (l : lit) : bool :=
  match ASG t (lvar l) (lval l), leq l with
  | Pos, false | Neg, true => true
  | _, _ => false
  end.

(** Formula::sat, Formula.cc:1149-1163 (1 satisfied, 2 unassigned, 0 falsified). *)
Inductive satres := SatTrue | SatUn | SatFalse.
Definition sat (t : trail) (l : lit) : outcome satres :=
  do* chk t l in
  Ok (if lit_true t l then SatTrue else if lit_un t l then SatUn else SatFalse).

(** Access to CLAUSELIST[n]->ATOM_LIST. *)
Definition getcl (s : state) (n : nat) : outcome clause :=
  match nth_error (cl s) n with Some c => Ok c | None => Undef OobClause end.

(** The values lo, lo+1, ..., lo+n-1 of a counting loop. *)
Definition zrange (lo n : Z) : list Z :=
  map (fun k => lo + Z.of_nat k) (seq 0 (Z.to_nat n)).

(** The atoms visited by the double loops over VARLIST and values, starting at variable [lo]
    (Formula.cc:334-336, 366-368, 407-409, 875-877, 889-891, 971-973). *)
Definition atoms_from (t : trail) (lo : Z) : list (Z * Z) :=
  flat_map (fun v => map (fun d => (v, d)) (zrange 0 (DOM t v))) (zrange lo (NV t + 1 - lo)).
