(** * Watched literals with linked lists

    A second model of the search with watched literals in which the watch lists are what they are
    in the code: doubly linked lists of VARRECORD objects (src/Variable.h:30-39) that are allocated
    and deleted.  It follows Variable.cc and Formula.cc like ModelWatch.v, ModelLearn.v,
    ModelSearch.v and ModelBuild.v, whose functions it uses where no record is accessed.  The
    component [wls] of the state is not used. *)

From Verif Require Import Spec Outcome State ModelCounter ModelHeur ModelLearn ModelWatch ModelSearch ModelBuild.

(** VARRECORD, Variable.h:30-39; pointers are numbers, [None] is NULL. *)
Record vrec := mkRec { c_num : nat; r_next : option nat; r_prev : option nat }.

(** [mem]: the records that are allocated; [brk]: the addresses from here on have never been used
    (addresses are not reused, so that an access to a deleted record is noticed); [top]:
    ATOMWATCHPOS and ATOMWATCHNEG. *)
Record heap := mkHeap { mem : nat -> option vrec; brk : nat; top : lit -> option nat }.
Definition no_heap : heap := mkHeap (fun _ => None) 0 (fun _ => None).

(** Access to a record; undefined behaviour if it does not exist (any more). *)
Definition load (h : heap) (p : nat) : outcome vrec :=
  match mem h p with Some r => Ok r | None => Undef BadPtr end.
Definition store (h : heap) (p : nat) (r : vrec) : outcome heap :=
  do* load h p in Ok (mkHeap (updn (mem h) p (Some r)) (brk h) (top h)).
(** [new] and [delete]. *)
Definition alloc (h : heap) (r : vrec) : nat * heap :=
  (brk h, mkHeap (updn (mem h) (brk h) (Some r)) (S (brk h)) (top h)).
Definition free (h : heap) (p : nat) : outcome heap :=
  do* load h p in Ok (mkHeap (updn (mem h) p None) (brk h) (top h)).
Definition set_top (h : heap) (l : lit) (p : option nat) : heap := mkHeap (mem h) (brk h) (updl (top h) l p).

Definition with_next (r : vrec) (p : option nat) : vrec := mkRec (c_num r) p (r_prev r).
Definition with_prev (r : vrec) (p : option nat) : vrec := mkRec (c_num r) (r_next r) p.

(** The solver with its records. *)
Definition hst : Type := state * heap.

(** Variable::addRecord, Variable.cc:102-124. *)
Definition h_add (x : hst) (l : lit) (n : nat) : outcome hst :=
  let (s, h) := x in
  do* chk (tr s) l in
  let (p, h) := alloc h (mkRec n (top h l) None) in
  let* h := match top h l with
            | Some q => let* r := load h q in store h q (with_prev r (Some p))
            | None => Ok h
            end in
  Ok (s, set_top h l (Some p)).

(** Variable::removeRecord, Variable.cc:127-142.  That [record] is on the list of [l] is not
    checked. *)
Definition h_remove (x : hst) (p : nat) (l : lit) : outcome hst :=
  let (s, h) := x in
  do* chk (tr s) l in
  let* r := load h p in
  let* h := match r_prev r with
            | Some q => let* a := load h q in store h q (with_next a (r_next r))
            | None => Ok (set_top h l (r_next r))
            end in
  let* r := load h p in
  let* h := match r_next r with
            | Some q => let* a := load h q in store h q (with_prev a (r_prev r))
            | None => Ok h
            end in
  let* h := free h p in
  Ok (s, h).

(** SwapPointer, Formula.cc:1224-1263. *)
Definition h_swap_pointer (x : hst) (p : nat) : outcome hst :=
  let (s, h) := x in
  let* r := load h p in
  let n := c_num r in
  let* ls := getcl s n in
  let a := w0 s n in
  let b := w1 s n in
  let* v := if Nat.ltb 1 (length ls) then sat (tr s) b else Ok SatFalse in
  match v with
  | SatUn =>
      let* o := find_repl (tr s) b ls in
      match o with
      | Some l =>
          let* x := h_remove x p a in
          let* x := h_add x l n in
          let (s, h) := x in
          Ok (set_w0 s (updn (w0 s) n l), h)
      | None => Ok (set_ulist s (n :: ulist s), h)
      end
  | _ => Ok (set_confcl (set_conflict s true) n, h)
  end.

(** The body of the loop of watchedFalsifyLiteral, Formula.cc:938-960. *)
Definition h_step (l : lit) (x : hst) (p : nat) : outcome hst :=
  let (s, h) := x in
  let* r := load h p in
  let n := c_num r in
  let* ls := getcl s n in
  let* v := sat (tr s) (w0 s n) in
  match v with
  | SatTrue => Ok x
  | _ =>
      let* v2 := if Nat.ltb 1 (length ls) then sat (tr s) (w1 s n) else Ok SatFalse in
      match v2 with
      | SatTrue => Ok (swap_w s n, h)
      | _ => h_swap_pointer (if lit_eqb (w1 s n) l then swap_w s n else s, h) p
      end
  end.

(** watchedFalsifyLiteral, Formula.cc:921-967: [next] is read before the step.  The bound on the
    number of iterations is the number of records ever allocated. *)
Fixpoint h_walk (fuel : nat) (l : lit) (x : hst) (current : option nat) : outcome hst :=
  match current with
  | None => Ok x
  | Some p =>
      if conflict (fst x) then Ok x
      else match fuel with
           | O => OutOfFuel
           | S fuel' =>
               let* r := load (snd x) p in
               let* x := h_step l x p in
               h_walk fuel' l x (r_next r)
           end
  end.
Definition h_falsify (x : hst) (l : lit) : outcome hst :=
  do* chk (tr (fst x)) l in
  h_walk (brk (snd x)) l x (top (snd x) l).

Definition h_assign (c : cfg) (x : hst) (v d : Z) (a : aval) : outcome hst :=
  let l := mkLit v d (match a with Pos => true | _ => false end) in
  h_falsify (mark c (fst x) v d a, snd x) (neg l).

(** watchedReduceTheory, Formula.cc:1265-1351. *)
Definition h_exclude (c : cfg) (v : Z) (x : hst) (i : Z) : outcome hst :=
  if conflict (fst x) then Ok x
  else match ASG (tr (fst x)) v i with
       | Un => h_assign c x v i Neg
       | _ => Ok x
       end.
Definition h_reduce_pos (c : cfg) (x : hst) (v d : Z) : outcome hst :=
  do* chk (tr (fst x)) (mkLit v d true) in
  let* x := h_assign c (push_dst (fst x) (mkLit v d true), snd x) v d Pos in
  let* x := foldM (h_exclude c v) (zrange 0 d) x in
  foldM (h_exclude c v) (zrange (d + 1) (DOM (tr (fst x)) v - (d + 1))) x.
Definition h_reduce_neg (c : cfg) (x : hst) (v d : Z) : outcome hst :=
  do* chk (tr (fst x)) (mkLit v d false) in
  let* x := h_assign c (push_dst (fst x) (mkLit v d false), snd x) v d Neg in
  let (s, h) := x in
  match check_entail (tr s) v with
  | Some e => h_reduce_pos c (set_uclause (set_entails s (entails s + 1)) REnt, h) v e
  | None => Ok (s, h)
  end.
Definition h_reduce (c : cfg) (x : hst) (l : lit) : outcome hst :=
  if leq l then h_reduce_pos c x (lvar l) (lval l) else h_reduce_neg c x (lvar l) (lval l).

(** WatchedUnitPropagation, Formula.cc:1165-1189. *)
Fixpoint h_propagate (fuel : nat) (c : cfg) (x : hst) : outcome hst :=
  match fuel with
  | O => OutOfFuel
  | S fuel' =>
      let (s, h) := x in
      if conflict s then Ok x
      else match ulist s with
           | [] => Ok x
           | n :: rest =>
               let s := set_uclause s (RCls n) in
               let s := set_ulist s rest in
               let* ls := getcl s n in
               let* r := sat (tr s) (w0 s n) in
               match r with
               | SatUn =>
                   let* x := h_reduce c (s, h) (w0 s n) in
                   let (s, h) := x in
                   h_propagate fuel' c (set_units s (units s + 1), h)
               | _ =>
                   let* r2 := if Nat.ltb 1 (length ls) then sat (tr s) (w1 s n) else Ok SatFalse in
                   match r2 with
                   | SatUn =>
                       let* x := h_reduce c (s, h) (w1 s n) in
                       let (s, h) := x in
                       h_propagate fuel' c (set_units s (units s + 1), h)
                   | _ => h_propagate fuel' c (s, h)
                   end
               end
           end
  end.

(** learnClause with WATCH, Formula.cc:772-835. *)
Definition h_learn (c : cfg) (x : hst) (ls : clause) (a b : lit) : outcome hst :=
  let (s, h) := x in
  let n := length (cl s) in
  let s := set_cl s (cl s ++ [ls]) in
  let s := set_num s (updn (num s) n 0) in
  let s := set_clev s (updn (clev s) n (-1)) in
  let s := set_w0 s (updn (w0 s) n a) in
  let s := set_w1 s (updn (w1 s) n b) in
  let* x := h_add (s, h) a n in
  let* x := if Nat.ltb 1 (length ls) then h_add x b n else Ok x in
  let (s, h) := x in
  let* s := foldM (learn_atom c n) ls s in
  let s := decay c s in
  if lenient c then Ok (s, h) else Undef NoReturn.

(** analyzeConflict with WATCH, Formula.cc:997-1078. *)
Fixpoint h_analyze (fuel : nat) (c : cfg) (x : hst) (ls : clause) (a b : lit) (temp : bool)
  : outcome (hst * (clause * (lit * lit))) :=
  match fuel with
  | O => OutOfFuel
  | S fuel' =>
      let* q := potent c (fst x) ls b in
      if q then
        if temp then
          let* x := h_learn c x ls a b in
          Ok (x, (ls, (a, b)))
        else Undef Aliased
      else
        let* r := reason_clause (fst x) a in
        let res := resolve ls a r in
        let* w := assign_watched (tr (fst x)) res in
        h_analyze fuel' c x res (fst w) (snd w) true
  end.

(** The conflict branch of WatchedLiterals, Formula.cc:1380-1415. *)
Definition h_conflict (fuel : nat) (c : cfg) (r rc : Z) (x : hst) : outcome (hst * Z) :=
  let s := fst x in
  let* ls := getcl s (confcl s) in
  let* res := h_analyze fuel c x ls (w0 s (confcl s)) (w1 s (confcl s)) false in
  let '((s, h), learned) := res in
  let* lv := if Nat.ltb 1 (length (fst learned)) then
               let b := snd (snd learned) in
               do* chk (tr s) b in Ok (llev (tr s) b)
             else Ok 0 in
  let s := set_level s lv in
  let s := set_backtracks s (backtracks s + 1) in
  let s := set_conflict s false in
  if backtracks s =? rc then
    let* s := wundo_theory s 0 in
    let rc := backtracks s + r in
    let s := set_restarts s (restarts s + 1) in
    let s := if level s =? 0 then only_last s else set_ulist s [] in
    Ok ((set_level s 0, h), rc)
  else
    let* s := wundo_theory s (level s) in
    Ok ((only_last s, h), rc).

Definition h_decide (c : cfg) (x : hst) (l : lit) : outcome hst :=
  let (s, h) := x in
  let s := set_decisions s (decisions s + 1) in
  let s := set_level s (level s + 1) in
  let s := set_uclause s RDec in
  h_reduce c (s, h) l.

(** WatchedLiterals, Formula.cc:1354-1444. *)
Fixpoint h_loop (fuel : nat) (c : cfg) (clk : nat -> bool) (r rc : Z) (x : hst)
  : outcome (verdict * hst) :=
  match fuel with
  | O => OutOfFuel
  | S fuel' =>
      let (s, h) := x in
      let (late, s) := check_time clk s in
      if late then Ok (TIMEOUT, (s, h))
      else if conflict s && (level s =? 0) then Ok (UNSAT, (s, h))
      else
        let* q := if conflict s then h_conflict fuel c r rc (s, h) else Ok ((s, h), rc) in
        let (x, rc) := q in
        let* x := match ulist (fst x) with
                  | [] => Ok x
                  | _ => h_propagate fuel c x
                  end in
        if conflict (fst x) then h_loop fuel' c clk r rc x
        else
          let* q := choose_wl c (fst x) in
          let (s, l) := q in
          if lvar l =? -1 then Ok (SAT, (s, snd x))
          else
            let* x := h_decide c (s, snd x) l in
            h_loop fuel' c clk r rc x
  end.

(** A clause line with WATCH, Formula.cc:119-208. *)
Definition h_add_clause (c : cfg) (x : hst) (ls : clause) : outcome hst :=
  let (s, h) := x in
  let n := length (cl s) in
  let* s := foldM (add_lit c n) ls s in
  let s := set_cl s (cl s ++ [ls]) in
  let s := set_num s (updn (num s) n (Z.of_nat (length ls))) in
  let s := set_clev s (updn (clev s) n (-1)) in
  let s := if Nat.eqb (length ls) 1 then set_ulist s (ulist s ++ [n]) else s in
  match ls with
  | [] => Undef OobClause
  | a :: ls' =>
      let s := set_w0 s (updn (w0 s) n a) in
      let* x := h_add (s, h) a n in
      match ls' with
      | [] => Ok x
      | b :: _ => h_add (set_w1 (fst x) (updn (w1 (fst x)) n b), snd x) b n
      end
  end.

Definition h_add_item (c : cfg) (x : hst) (i : item) : outcome hst :=
  match i with
  | IDom d => let* s := add_domain (fst x) d in Ok (s, snd x)
  | ICls ls => h_add_clause c x ls
  end.

(** SolveFinite with -wl, SolveFinite.cc:21-94. *)
Definition h_solve (fuel : nat) (c : cfg) (clk : nat -> bool) (r : Z) (p : problem) : outcome (report * hst) :=
  let* x := foldM (h_add_item c) (items_of p) (init_state, no_heap) in
  let* q := h_loop fuel c clk r r x in
  let '(v, (s, h)) := q in
  let mk md ver := mkReport v (decisions s) (units s) (backtracks s) (entails s) (NV (tr s))
                     (Z.of_nat (length (cl s))) (restarts s) md ver in
  match v with
  | SAT => let* b := verify_model s in Ok (mk (print_model s) (Some b), (s, h))
  | _ => Ok (mk [] None, (s, h))
  end.

(** ** Variable::~Variable

    Variable.cc:69-100: the lists of the variable, for one value and one sign.  The records are
    deleted one after the other, and then the one the head of the list points to is deleted. *)
Fixpoint h_delete_all (fuel : nat) (h : heap) (current : option nat) : outcome heap :=
  match current with
  | None => Ok h
  | Some p =>
      match fuel with
      | O => OutOfFuel
      | S fuel' =>
          let* r := load h p in
          let* h := free h p in
          h_delete_all fuel' h (r_next r)
      end
  end.
Definition h_destroy (h : heap) (l : lit) : outcome heap :=
  let* h := h_delete_all (brk h) h (top h l) in
  match top h l with
  | None => Ok h
  | Some p => free h p
  end.
