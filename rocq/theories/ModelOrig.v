(** * The first version of the solver

    Models original_solver/Formula.cc (BuildFormula after the scanning of a line, verifyModel,
    checkSat, checkUnit, checkEntail, chooseLiteral, reduceTheory, satisfyClauses,
    removeLiteral, undoTheory, unsatisfyClauses, addLiteral, analyzeConflict, unitPropagation,
    ChronoBacktrack, NonChronoBacktrackLoop) and original_solver/SolveFinite.cc.  Line numbers
    without a file name refer to original_solver/Formula.cc.

    Not modelled: NonChronoBacktrack (924-1021, not called), checkConflict and checkPureLiteral
    (not called), the text scanner of BuildFormula, and the printed times.  Counters are
    unbounded integers. *)

From Verif Require Import Spec Outcome State ModelCounter ModelSearch ModelBuild.

(** What is known about the pointer ENTAILLITERAL (Formula.h:71), which no constructor sets
    (Formula.cc:14-51) and checkEntail deletes if it is not NULL (328-329):
    - [PUninit] never written
    - [PNull] never written, and the memory happened to hold NULL
    - [PLive] the address of an object made by checkEntail
    - [PDead] the address of an object that was deleted
    - [PIgnore] not a state of the code: the deletion at 329 is taken to have no effect. *)
Inductive entptr := PUninit | PNull | PLive | PDead | PIgnore.

(** The members of Formula (original_solver/Formula.h:60-76) and its objects.  They are kept in
    the record [state] of State.v where the names agree; the members that do not exist here
    (ATOMINDEX, WATCHED, scores, watch lists, RESTARTS) and [VAL] of [trail] are not used.
    CLAUSEID and UNITCLAUSE: -1 is [RDec].
    - [ost]: the common part; ATOMLEVEL is -1 for an unassigned atom
    - [oval], [osat], [ovlev]: VAL, SAT and LEVEL of the variables (Variable.h)
    - [ocsat]: SAT of the clauses (Clause.h)
    - [optr]: ENTAILLITERAL
    - [omsg]: "No Branch Atom selected" was printed *)
Record orig := mkOrig {
  ost : state;
  oval : Z -> Z;
  osat : Z -> bool;
  ovlev : Z -> Z;
  ocsat : nat -> bool;
  optr : entptr;
  omsg : bool
}.
Definition on (o : orig) (s : state) : orig :=
  mkOrig s (oval o) (osat o) (ovlev o) (ocsat o) (optr o) (omsg o).
Definition set_ocsat (o : orig) (x : nat -> bool) : orig :=
  mkOrig (ost o) (oval o) (osat o) (ovlev o) x (optr o) (omsg o).
Definition set_optr (o : orig) (x : entptr) : orig :=
  mkOrig (ost o) (oval o) (osat o) (ovlev o) (ocsat o) x (omsg o).
Definition set_var (o : orig) (v val : Z) (sat : bool) (lev : Z) : orig :=
  mkOrig (ost o) (upd1 (oval o) v val) (upd1 (osat o) v sat) (upd1 (ovlev o) v lev)
    (ocsat o) (optr o) (omsg o).
Definition set_omsg (o : orig) : orig :=
  mkOrig (ost o) (oval o) (osat o) (ovlev o) (ocsat o) (optr o) true.

(** ATOMASSIGN, ATOMLEVEL and CLAUSEID of one atom. *)
Definition set_atom (s : state) (v d : Z) (a : aval) (lev : Z) (r : reason) : state :=
  let t := tr s in
  set_tr s (mkTrail (NV t) (DOM t) (VAL t) (upd2 (ASG t) v d a) (upd2 (ALEV t) v d lev)
              (AIDX t) (upd2 (CID t) v d r) (DST t)).

(** ** Building *)

(** The constructor (34-51), Variable::Variable (Variable.cc:34-60), 72-73, and clause objects
    (Clause.cc:16-33). *)
Definition o_init (e : entptr) : orig :=
  mkOrig
    (mkState
       (mkTrail 0 (fun _ => 0) (fun _ => -1) (fun _ _ => Un) (fun _ _ => -1) (fun _ _ => -1)
          (fun _ _ => RDec) [])
       [] (fun _ => 0) (fun _ => -1) (fun _ => nolit) (fun _ => nolit) (fun _ => 0)
       (vs init_state) (fun _ => []) (fun _ => []) 0 [] RDec false 0 0 0 0 0 0 0)
    (fun _ => -1) (fun v => v =? 0) (fun _ => -1) (fun _ => false) e false.

(** One literal of a clause line, 145-163; AddRecord puts the clause in front of the list
    (Variable.cc:95-116). *)
Definition o_add_lit (n : nat) (o : orig) (l : lit) : outcome orig :=
  let s := ost o in
  do* chk (tr s) l in
  let s := set_cnt s (updl (cnt s) l (cnt s l + 1)) in
  Ok (on o (set_rec s (updl (rec s) l (n :: rec s l)))).

(** A domain line, 112-117, and a clause line, 119-170. *)
Definition o_add_item (o : orig) (i : item) : outcome orig :=
  match i with
  | IDom d => let* s := add_domain (ost o) d in Ok (on o s)
  | ICls ls =>
      let n := length (cl (ost o)) in
      let* o := foldM (o_add_lit n) ls o in
      let s := set_cl (ost o) (cl (ost o) ++ [ls]) in
      Ok (on o (set_num s (updn (num s) n (Z.of_nat (length ls)))))
  end.

Definition o_build (e : entptr) (is : list item) : outcome orig :=
  foldM o_add_item is (o_init e).

(** ** Checks *)

(** checkSat, 280-293. *)
Definition o_check_sat (o : orig) : bool :=
  forallb (ocsat o) (seq 0 (length (cl (ost o)))).

(** checkUnit, 311-323. *)
Definition o_check_unit (o : orig) : orig :=
  let s := ost o in
  on o (set_ulist s (filter (fun n => (num s n =? 1) && negb (ocsat o n))
                       (seq 0 (length (cl s))))).

(** The deletion at the start of checkEntail, 328-329. *)
Definition delete_ptr (e : entptr) : outcome entptr :=
  match e with
  | PUninit => Undef Uninit
  | PNull => Ok PNull
  | PLive => Ok PDead
  | PDead => Undef BadPtr
  | PIgnore => Ok PIgnore
  end.
Definition fresh_ptr (e : entptr) : entptr :=
  match e with PIgnore => PIgnore | _ => PLive end.

(** checkEntail, 326-366. *)
Definition o_check_entail (o : orig) (v : Z) : outcome (orig * option Z) :=
  let* e := delete_ptr (optr o) in
  let f := if osat o v then None else check_entail (tr (ost o)) v in
  match f with
  | Some d => Ok (set_optr o (fresh_ptr e), Some d)
  | None => Ok (set_optr o e, None)
  end.

(** chooseLiteral, 375-405.  The initial value of max, -9999999999999999, does not fit in an
    int; the value stored is that number modulo 2^32. *)
Definition o_max0 : Z := -1874919423.
Definition o_choose_step (o : orig) (b : Z * option lit) (a : Z * Z) : Z * option lit :=
  let (v, d) := a in
  let t := tr (ost o) in
  if osat o v then b
  else match ASG t v d with
       | Un =>
           let k := cnt (ost o) (mkLit v d true) - cnt (ost o) (mkLit v d false) in
           if fst b <? k then (k, Some (mkLit v d true)) else b
       | _ => b
       end.
Definition o_choose (o : orig) : orig * option lit :=
  (on o (set_uclause (ost o) RDec),
   snd (fold_left (o_choose_step o) (atoms_from (tr (ost o)) 0) (o_max0, None))).

(** ** Assigning *)

(** satisfyClauses, inner loop, 500-513. *)
Definition o_dec (n : nat) (s : state) (l : lit) : outcome state :=
  do* chk (tr s) l in
  Ok (if lit_un (tr s) l then
        set_cnt (set_num s (updn (num s) n (num s n - 1))) (updl (cnt s) l (cnt s l - 1))
      else s).

(** satisfyClauses, 481-518. *)
Definition o_sat_step (o : orig) (n : nat) : outcome orig :=
  let* cls := getcl (ost o) n in
  if ocsat o n then Ok o
  else
    let o := set_ocsat o (updn (ocsat o) n true) in
    let s := set_clev (ost o) (updn (clev (ost o)) n (level (ost o))) in
    let* s := foldM (o_dec n) cls s in
    Ok (on o s).
Definition o_satisfy (o : orig) (l : lit) : outcome orig :=
  do* chk (tr (ost o)) l in
  foldM o_sat_step (rec (ost o) l) o.

(** removeLiteral, 521-550. *)
Definition o_remove_step (l : lit) (o : orig) (n : nat) : outcome orig :=
  let s := ost o in
  do* getcl s n in
  if ocsat o n then Ok o
  else
    let k := num s n - 1 in
    let s := set_num s (updn (num s) n k) in
    let s := set_cnt s (updl (cnt s) l (cnt s l - 1)) in
    let s := if k =? 1 then set_ulist s (n :: ulist s) else s in
    Ok (on o (if k =? 0 then set_confcl (set_conflict s true) n else s)).
Definition o_remove (o : orig) (l : lit) : outcome orig :=
  do* chk (tr (ost o)) l in
  foldM (o_remove_step l) (rec (ost o) l) o.

(** 415-418 and 424 ([Pos]), 435-439, 446-450, 459-464 ([Neg]). *)
Definition o_assign (o : orig) (v d : Z) (a : aval) : outcome orig :=
  let l := mkLit v d (match a with Pos => true | _ => false end) in
  let* o := o_satisfy o l in
  let* o := o_remove o (neg l) in
  let s := ost o in
  Ok (on o (set_atom s v d a (level s) (uclause s))).

(** The bodies of the two loops of reduceTheory, 431-452. *)
Definition o_exclude (v : Z) (o : orig) (i : Z) : outcome orig :=
  if conflict (ost o) then Ok o
  else match ASG (tr (ost o)) v i with
       | Un => o_assign o v i Neg
       | _ => Ok o
       end.

(** reduceTheory with equals = true, 410-453. *)
Definition o_reduce_pos (o : orig) (v d : Z) : outcome orig :=
  do* chk (tr (ost o)) (mkLit v d true) in
  let* o := o_assign o v d Pos in
  let o := set_var o v d true (level (ost o)) in
  let o := on o (push_dst (ost o) (mkLit v d true)) in
  let* o := foldM (o_exclude v) (zrange 0 d) o in
  foldM (o_exclude v) (zrange (d + 1) (DOM (tr (ost o)) v - (d + 1))) o.

(** reduceTheory with equals = false, 454-477; the recursive call has equals = true.  The
    assignment of CLAUSEID at 474 is repeated by that call (424) with the same value. *)
Definition o_reduce_neg (o : orig) (v d : Z) : outcome orig :=
  do* chk (tr (ost o)) (mkLit v d false) in
  let* o := o_assign o v d Neg in
  let o := on o (push_dst (ost o) (mkLit v d false)) in
  let* q := o_check_entail o v in
  let (o, f) := q in
  match f with
  | Some e => o_reduce_pos (on o (set_entails (ost o) (entails (ost o) + 1))) v e
  | None => Ok o
  end.

(** reduceTheory, 408-478. *)
Definition o_reduce (o : orig) (l : lit) : outcome orig :=
  if leq l then o_reduce_pos o (lvar l) (lval l) else o_reduce_neg o (lvar l) (lval l).

(** ** Undoing *)

(** addLiteral, 649-672. *)
Definition o_add_step (l : lit) (o : orig) (n : nat) : outcome orig :=
  let s := ost o in
  do* getcl s n in
  if ocsat o n then Ok o
  else
    let s := set_num s (updn (num s) n (num s n + 1)) in
    Ok (on o (set_cnt s (updl (cnt s) l (cnt s l + 1)))).
Definition o_add (o : orig) (l : lit) : outcome orig :=
  do* chk (tr (ost o)) l in
  foldM (o_add_step l) (rec (ost o) l) o.

(** unsatisfyClauses, inner loop, 623-639.  The counter that is raised is chosen by [equals]
    (the parameter of unsatisfyClauses), not by the literal (lit_equal is not used). *)
Definition o_inc (equals : bool) (lev : Z) (n : nat) (s : state) (l : lit) : outcome state :=
  do* chk (tr s) l in
  if (lev <? ALEV (tr s) (lvar l) (lval l)) || lit_un (tr s) l then
    let s := set_num s (updn (num s) n (num s n + 1)) in
    let m := mkLit (lvar l) (lval l) equals in
    Ok (set_cnt s (updl (cnt s) m (cnt s m + 1)))
  else Ok s.

(** unsatisfyClauses, 608-646. *)
Definition o_unsat_step (equals : bool) (lev : Z) (o : orig) (n : nat) : outcome orig :=
  let s := ost o in
  let* cls := getcl s n in
  if lev <? clev s n then
    let* s := foldM (o_inc equals lev n) cls s in
    let s := set_clev s (updn (clev s) n (-1)) in
    Ok (on (set_ocsat o (updn (ocsat o) n false)) s)
  else Ok o.
Definition o_unsatisfy (lev : Z) (o : orig) (l : lit) : outcome orig :=
  do* chk (tr (ost o)) l in
  foldM (o_unsat_step (leq l) lev) (rec (ost o) l) o.

(** undoTheory, first double loop, 557-570. *)
Definition o_undo1 (lev : Z) (o : orig) (a : Z * Z) : outcome orig :=
  let (v, d) := a in
  let t := tr (ost o) in
  if lev <? ALEV t v d then
    match ASG t v d with
    | Neg => o_add o (mkLit v d true)
    | _ => o_add o (mkLit v d false)
    end
  else Ok o.

(** The second double loop, 573-595: the inner loop body, and the rest of the outer one. *)
Definition o_undo2 (lev v : Z) (o : orig) (d : Z) : outcome orig :=
  let t := tr (ost o) in
  if lev <? ALEV t v d then
    let* o := match ASG t v d with
              | Neg => o_unsatisfy lev o (mkLit v d false)
              | _ => o_unsatisfy lev o (mkLit v d true)
              end in
    Ok (on o (set_atom (ost o) v d Un (-1) RDec))
  else Ok o.
Definition o_undo_var (lev : Z) (o : orig) (v : Z) : outcome orig :=
  let* o := foldM (o_undo2 lev v) (zrange 0 (DOM (tr (ost o)) v)) o in
  Ok (if lev <? ovlev o v then set_var o v (-1) false (-1) else o).

(** undoTheory, 553-605; the loop over DECSTACK (597-604) is that of [prune_dst]. *)
Definition o_undo (o : orig) (lev : Z) : outcome orig :=
  let* o := foldM (o_undo1 lev) (atoms_from (tr (ost o)) 1) o in
  let* o := foldM (o_undo_var lev) (zrange 1 (NV (tr (ost o)))) o in
  let* s := prune_dst (ost o) in
  Ok (on o s).

(** ** Propagation *)

(** unitPropagation, 791-838.  At 819 CLAUSEID is set to the value that reduceTheory sets
    again; the search for the first unassigned literal is that of [first_un]. *)
Fixpoint o_propagate_loop (fuel : nat) (o : orig) : outcome orig :=
  match fuel with
  | O => OutOfFuel
  | S fuel' =>
      let s := ost o in
      if conflict s then Ok o
      else match ulist s with
           | [] => Ok o
           | n :: rest =>
               let s := set_units s (units s + 1) in
               let s := set_uclause s (RCls n) in
               let s := set_ulist s rest in
               let* cls := getcl s n in
               if ocsat o n then o_propagate_loop fuel' (on o s)
               else
                 let* f := first_un (tr s) cls in
                 match f with
                 | Some l =>
                     let* o := o_reduce (on o s) l in
                     o_propagate_loop fuel' o
                 | None => o_propagate_loop fuel' (on o s)
                 end
           end
  end.
Definition o_propagate (fuel : nat) (o : orig) : outcome orig :=
  let* o := o_propagate_loop fuel o in
  Ok (if conflict (ost o) then on o (set_ulist (ost o) []) else o).

(** ** Conflict analysis *)

(** DECSTACK[index]; a negative index is outside the vector. *)
Definition dst_at (s : state) (i : Z) : outcome lit :=
  if i <? 0 then Undef OobStack
  else match nth_error (DST (tr s)) (Z.to_nat i) with
       | Some l => Ok l
       | None => Undef OobStack
       end.

(** analyzeConflict, the loop at 702-786.  The loop at 690-700 sets every FLAG to true, so no
    literal of the clause CID is looked at any further (708-736), the loop at 737-741 does
    nothing, and numLit takes the values 0, -1, -2, ...; the loop goes down the stack
    (777-785) until CID is -1.  [cid = None] is CID = -1. *)
Fixpoint o_walk_down (fuel : nat) (s : state) (cid : option nat) (i : Z) : outcome Z :=
  match fuel with
  | O => OutOfFuel
  | S fuel' =>
      match cid with
      | None => Ok i
      | Some n =>
          do* getcl s n in
          let* l := dst_at s i in
          do* chk (tr s) l in
          o_walk_down fuel' s
            (match CID (tr s) (lvar l) (lval l) with RCls m => Some m | _ => None end) (i - 1)
      end
  end.

(** The loop at 744-747. *)
Fixpoint o_walk_up (fuel : nat) (s : state) (i : Z) : outcome lit :=
  match fuel with
  | O => OutOfFuel
  | S fuel' =>
      let* l := dst_at s i in
      do* chk (tr s) l in
      if ALEV (tr s) (lvar l) (lval l) =? level s then Ok l
      else o_walk_up fuel' s (i + 1)
  end.

(** analyzeConflict, 675-788: the learned clause has the one literal added at 748-753, its
    NumUnAss is back at 0 (754), SAT and LEVEL are those of a new clause (Clause.cc:15-23), and
    the result is always 0 (763-766).  The loop that goes
    down makes at most one step per entry and the loop that goes up likewise, which is what
    the fuel says. *)
Definition o_analyze (o : orig) : outcome orig :=
  let s := ost o in
  let f := S (S (length (DST (tr s)))) in
  let* i := o_walk_down f s (Some (confcl s)) (Z.of_nat (length (DST (tr s))) - 1) in
  let* l := o_walk_up f s i in
  let n := length (cl s) in
  let s := set_cl s (cl s ++ [[neg l]]) in
  let s := set_num s (updn (num s) n 0) in
  let s := set_clev s (updn (clev s) n (-1)) in
  let o := set_ocsat o (updn (ocsat o) n false) in
  Ok (on o (set_rec s (updl (rec s) (neg l) (n :: rec s (neg l))))).

(** ** The searches *)

Definition o_time (clk : nat -> bool) (o : orig) : bool * orig :=
  let (b, s) := check_time clk (ost o) in (b, on o s).

(** 874-875 *)
Definition o_units (fuel : nat) (o : orig) : outcome orig :=
  match ulist (ost o) with [] => Ok o | _ => o_propagate fuel o end.

(** DECISIONS++; LEVEL++; reduceTheory(...), 900-902 and 1084-1087. *)
Definition o_decide (o : orig) (l : lit) : outcome orig :=
  let s := set_decisions (ost o) (decisions (ost o) + 1) in
  o_reduce (on o (set_level s (level s + 1))) l.

(** ChronoBacktrack, 841-921. *)
Fixpoint o_chrono (fuel : nat) (clk : nat -> bool) (o : orig) (lev : Z)
  : outcome (verdict * orig) :=
  match fuel with
  | O => OutOfFuel
  | S fuel' =>
      let o := on o (set_level (ost o) lev) in
      if o_check_sat o then Ok (SAT, o)
      else
        let (late, o) := o_time clk o in
        if late then Ok (TIMEOUT, o)
        else
          let* o := o_units fuel o in
          if o_check_sat o then Ok (SAT, o)
          else
            let (late, o) := o_time clk o in
            if late then Ok (TIMEOUT, o)
            else if conflict (ost o) then
              let s := set_backtracks (ost o) (backtracks (ost o) + 1) in
              let s := set_conflict s false in
              let* o := o_undo (on o s) (level s - 1) in
              Ok (UNSAT, on o (set_level (ost o) (level (ost o) - 1)))
            else
              let (o, f) := o_choose o in
              match f with
              | None => Ok (SAT, set_omsg o)
              | Some l =>
                  let* o := o_decide o l in
                  let* res := o_chrono fuel' clk o (level (ost o)) in
                  let (v, o) := res in
                  match v with
                  | SAT => Ok (SAT, o)
                  | TIMEOUT => Ok (TIMEOUT, o)
                  | UNSAT =>
                      if level (ost o) =? 0 then Ok (UNSAT, o)
                      else
                        let* o := o_reduce o (neg l) in
                        o_chrono fuel' clk o (level (ost o))
                  end
              end
  end.

(** The conflict branch of NonChronoBacktrackLoop above level 0, 1066-1073. *)
Definition o_conflict (o : orig) : outcome orig :=
  let* o := o_analyze o in
  let s := set_level (ost o) 0 in
  let s := set_backtracks s (backtracks s + 1) in
  let s := set_conflict s false in
  let* o := o_undo (on o s) 0 in
  Ok (o_check_unit o).

(** NonChronoBacktrackLoop, 1025-1092. *)
Fixpoint o_loop (fuel : nat) (clk : nat -> bool) (o : orig) : outcome (verdict * orig) :=
  match fuel with
  | O => OutOfFuel
  | S fuel' =>
      if o_check_sat o then Ok (SAT, o)
      else
        let (late, o) := o_time clk o in
        if late then Ok (TIMEOUT, o)
        else
          match ulist (ost o) with
          | _ :: _ =>
              let* o := o_propagate fuel o in
              if o_check_sat o then Ok (SAT, o)
              else
                let (late, o) := o_time clk o in
                if late then Ok (TIMEOUT, o) else o_loop fuel' clk o
          | [] =>
              if conflict (ost o) then
                if level (ost o) =? 0 then Ok (UNSAT, o)
                else let* o := o_conflict o in o_loop fuel' clk o
              else
                let (o, f) := o_choose o in
                match f with
                | Some l => let* o := o_decide o l in o_loop fuel' clk o
                | None => o_loop fuel' clk o
                end
          end
  end.

(** ** The report *)

(** verifyModel, 219-277: the clauses that are set to SAT. *)
Definition o_hit (s : state) (f : nat -> bool) (l : lit) : outcome (nat -> bool) :=
  foldM (fun f n => do* getcl s n in Ok (updn f n true)) (rec s l) f.
Definition o_hit_value (o : orig) (v : Z) (f : nat -> bool) (j : Z) : outcome (nat -> bool) :=
  let s := ost o in
  if oval o v =? -1 then
    match ASG (tr s) v j with
    | Neg => o_hit s f (mkLit v j false)
    | _ => Ok f
    end
  else o_hit s f (mkLit v j (j =? oval o v)).
Definition o_verify (o : orig) : outcome bool :=
  let s := ost o in
  let* f := foldM (fun f v => foldM (o_hit_value o v) (zrange 0 (DOM (tr s) v)) f)
              (zrange 1 (NV (tr s))) (fun _ => false) in
  Ok (forallb f (seq 0 (length (cl s)))).

(** What SolveFinite prints (SolveFinite.cc:60-74, PrintInfo 205-216, and the message of 918). *)
Record oreport := mkOreport {
  or_verdict : verdict;
  or_decisions : Z; or_units : Z; or_backtracks : Z; or_entails : Z; or_level : Z;
  or_variables : Z; or_clauses : Z;
  or_message : bool;          (* "No Branch Atom selected" *)
  or_verified : option bool   (* None unless SAT *)
}.

Definition o_search (fuel : nat) (m : mode) (clk : nat -> bool) (o : orig) :=
  match m with
  | Chrono => o_chrono fuel clk o 0
  | NonChrono => o_loop fuel clk (on o (set_level (ost o) 0))
  end.

(** SolveFinite, SolveFinite.cc:21-75. *)
Definition o_finish (q : verdict * orig) : outcome oreport :=
  let (v, o) := q in
  let s := ost o in
  let mk ver := mkOreport v (decisions s) (units s) (backtracks s) (entails s) (level s)
                  (NV (tr s)) (Z.of_nat (length (cl s))) (omsg o) ver in
  match v with
  | SAT => let* b := o_verify o in Ok (mk (Some b))
  | _ => Ok (mk None)
  end.
Definition o_solve (fuel : nat) (m : mode) (e : entptr) (clk : nat -> bool) (p : problem)
  : outcome oreport :=
  let* o := o_build e (items_of p) in
  let* q := o_search fuel m clk (o_check_unit o) in
  o_finish q.
