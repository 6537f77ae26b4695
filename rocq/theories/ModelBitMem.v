(** * The second solver with its memory

    A second model of bitvec/ in which the watch lists and the clauses are what they are in the code:
    doubly linked lists of VARRECORD objects (bitvec/Variable.h:33-40) and Clause objects
    (bitvec/Clause.h) that are allocated, reached by pointers and deleted.  It follows ModelBit.v,
    whose functions it uses where neither a record nor a clause is accessed.  The components [brec],
    [bcl], [bw0] and [bw1] of the state are not used. *)

From Coq Require Import Floats.SpecFloat.
From Verif Require Import Spec Outcome State ModelHeur ModelSearch ModelBuild ModelHeap ModelBit.

(** ** Records

    [bmem]: the records that are allocated ([vrec] as in ModelHeap.v); [bbrk]: the addresses from here
    on have never been used (addresses are not reused, so that an access to a deleted record is
    noticed); [btop]: VARREC of each variable. *)
Record bheap := mkBheap { bmem : nat -> option vrec; bbrk : nat; btop : Z -> option nat }.
Definition no_bheap : bheap := mkBheap (fun _ => None) 0 (fun _ => None).

(** Access to a record; undefined behaviour if it does not exist (any more); [new] and [delete]. *)
Definition bload (h : bheap) (p : nat) : outcome vrec :=
  match bmem h p with Some r => Ok r | None => Undef BadPtr end.
Definition bstore (h : bheap) (p : nat) (r : vrec) : outcome bheap :=
  do* bload h p in Ok (mkBheap (updn (bmem h) p (Some r)) (bbrk h) (btop h)).
Definition balloc (h : bheap) (r : vrec) : nat * bheap :=
  (bbrk h, mkBheap (updn (bmem h) (bbrk h) (Some r)) (S (bbrk h)) (btop h)).
Definition bfree (h : bheap) (p : nat) : outcome bheap :=
  do* bload h p in Ok (mkBheap (updn (bmem h) p None) (bbrk h) (btop h)).
Definition set_btop (h : bheap) (v : Z) (p : option nat) : bheap := mkBheap (bmem h) (bbrk h) (upd1 (btop h) v p).

(** Variable::addRecord, Variable.cc:61-76. *)
Definition r_add (h : bheap) (v : Z) (n : nat) : outcome bheap :=
  let (p, h) := balloc h (mkRec n (btop h v) None) in
  let* h := match btop h v with
            | Some q => let* r := bload h q in bstore h q (with_prev r (Some p))
            | None => Ok h
            end in
  Ok (set_btop h v (Some p)).

(** Variable::removeRecord, Variable.cc:79-94.  That [record] is on the list of [v] is not checked. *)
Definition r_remove (h : bheap) (p : nat) (v : Z) : outcome bheap :=
  let* r := bload h p in
  let* h := match r_prev r with
            | Some q => let* a := bload h q in bstore h q (with_next a (r_next r))
            | None => Ok (set_btop h v (r_next r))
            end in
  let* r := bload h p in
  let* h := match r_next r with
            | Some q => let* a := bload h q in bstore h q (with_prev a (r_prev r))
            | None => Ok h
            end in
  let* h := match btop h v with
            | Some q => if Nat.eqb p q then let* r := bload h p in Ok (set_btop h v (r_next r)) else Ok h
            | None => Ok h
            end in
  bfree h p.

(** Variable::~Variable, Variable.cc:46-58: the records (no Variable is ever deleted). *)
Fixpoint r_delete_all (fuel : nat) (h : bheap) (temp : option nat) : outcome bheap :=
  match temp with
  | None => Ok h
  | Some p =>
      match fuel with
      | O => OutOfFuel
      | S f =>
          let* r := bload h p in
          let* h := bfree h p in
          r_delete_all f h (r_next r)
      end
  end.
Definition r_destroy (h : bheap) (v : Z) : outcome bheap := r_delete_all (bbrk h) h (btop h v).

(** ** Clauses *)

(** Clause, Clause.h:35-60: ATOM_LIST and WATCHED. *)
Record cobj := mkObj { o_atoms : bclause; o_w0 : blit; o_w1 : blit }.
Definition o_empty : cobj := mkObj [] bnolit bnolit.

(** The solver with its memory.
    - [ms]: the members that are no pointers
    - [mh]: the records
    - [mo], [mbrk]: the Clause objects that are allocated, and the first address never used
    - [mcl]: CLAUSELIST (a vector of pointers) *)
Record mst := mkM { ms : bst; mh : bheap; mo : nat -> option cobj; mbrk : nat; mcl : list nat }.
Definition set_ms (x : mst) (s : bst) : mst := mkM s (mh x) (mo x) (mbrk x) (mcl x).
Definition set_mh (x : mst) (h : bheap) : mst := mkM (ms x) h (mo x) (mbrk x) (mcl x).
Definition set_mcl (x : mst) (l : list nat) : mst := mkM (ms x) (mh x) (mo x) (mbrk x) l.

Definition oload (x : mst) (a : nat) : outcome cobj :=
  match mo x a with Some o => Ok o | None => Undef BadPtr end.
Definition ostore (x : mst) (a : nat) (o : cobj) : outcome mst :=
  do* oload x a in Ok (mkM (ms x) (mh x) (updn (mo x) a (Some o)) (mbrk x) (mcl x)).
Definition onew (x : mst) (o : cobj) : nat * mst :=
  (mbrk x, mkM (ms x) (mh x) (updn (mo x) (mbrk x) (Some o)) (S (mbrk x)) (mcl x)).
Definition ofree (x : mst) (a : nat) : outcome mst :=
  do* oload x a in Ok (mkM (ms x) (mh x) (updn (mo x) a None) (mbrk x) (mcl x)).

(** CLAUSELIST[n], and the object it points to. *)
Definition mptr (x : mst) (n : nat) : outcome nat :=
  match nth_error (mcl x) n with Some a => Ok a | None => Undef OobClause end.
Definition mget (x : mst) (n : nat) : outcome (nat * cobj) :=
  let* a := mptr x n in let* o := oload x a in Ok (a, o).

(** VARLIST[v]->addRecord(n) *)
Definition m_add (x : mst) (v : Z) (n : nat) : outcome mst :=
  do* bvar (ms x) v in
  let* h := r_add (mh x) v n in Ok (set_mh x h).

(** ** Building the theory *)

(** A domain line, Formula.cc:112-118: the Clause of line 96 is not used and never deleted. *)
Definition m_add_domain (x : mst) (d : Z) : outcome mst :=
  let (a, x) := onew x o_empty in
  let* s := badd_domain (ms x) d in Ok (set_ms x s).

(** A clause line, Formula.cc:96 and 123-202. *)
Definition m_add_clause (x : mst) (ls : clause) : outcome mst :=
  let (a, x) := onew x o_empty in
  let* c := foldM (read_atom (ms x)) ls [] in
  let* x := ostore x a (mkObj c bnolit bnolit) in
  let n := length (mcl x) in
  let x := set_mcl x (mcl x ++ [a]) in
  let* s := foldM bump_lit c (ms x) in
  let s := if Nat.eqb (length c) 1 then set_bulist s (bulist s ++ [n]) else s in
  let x := set_ms x s in
  match c with
  | [] => Undef OobClause
  | w :: c' =>
      let* o := oload x a in
      let* x := ostore x a (mkObj (o_atoms o) w (o_w1 o)) in
      let* x := m_add x (fst w) n in
      match c' with
      | [] => Ok x
      | w2 :: _ =>
          let* o := oload x a in
          let* x := ostore x a (mkObj (o_atoms o) (o_w0 o) w2) in
          m_add x (fst w2) n
      end
  end.

Definition m_add_item (x : mst) (i : item) : outcome mst :=
  match i with IDom d => m_add_domain x d | ICls c => m_add_clause x c end.
Definition m_init : mst := mkM binit no_bheap (fun _ => None) 0 [].
Definition m_build (is : list item) : outcome mst := foldM m_add_item is m_init.

(** verifyModel, Formula.cc:238-256. *)
Fixpoint m_verify_clauses (x : mst) (l : list nat) : outcome bool :=
  match l with
  | [] => Ok true
  | a :: l' => let* o := oload x a in
      let* b := bverify_clause (ms x) (o_atoms o) in
      if b then m_verify_clauses x l' else Ok false
  end.
Definition m_verify (x : mst) : outcome bool := m_verify_clauses x (mcl x).

(** ** Choosing a literal *)

(** lazyWatchedChooseLiteral, Formula.cc:549-561. *)
Fixpoint m_choose_lazy (x : mst) (l : list nat) : outcome blit :=
  match l with
  | [] => Ok bnolit
  | a :: l' => let* o := oload x a in
      let* y := bsat (ms x) (o_w0 o) in
      match y with SatUn => Ok (o_w0 o) | _ => m_choose_lazy x l' end
  end.
Definition m_choose (c : bcfg) (x : mst) : outcome (mst * blit) :=
  if bvsids c then let* q := bchoose_vsids (ms x) in Ok (set_ms x (fst q), snd q)
  else let* l := m_choose_lazy x (mcl x) in Ok (x, l).

(** ** Reducing the theory *)

(** SwapPointer, Formula.cc:563-600. *)
Definition m_swap (p : nat) (x : mst) : outcome mst :=
  let* r := bload (mh x) p in
  let n := c_num r in
  let* q := mget x n in
  let (ad, o) := q in
  let a := o_w0 o in
  let b := o_w1 o in
  let* y := bsat (ms x) b in
  match y with
  | SatUn =>
      let* f := bfind (ms x) b (o_atoms o) in
      match f with
      | Some l =>
          do* bvar (ms x) (fst a) in
          let* h := r_remove (mh x) p (fst a) in
          let* x := m_add (set_mh x h) (fst l) n in
          let* o := oload x ad in
          ostore x ad (mkObj (o_atoms o) l (o_w1 o))
      | None => Ok (set_ms x (set_bulist (ms x) (n :: bulist (ms x))))
      end
  | _ => Ok (set_ms x (set_bcc (set_bconf (ms x) true) n))
  end.

(** The exchange of the two watched literals of CLAUSELIST[n], Formula.cc:392-394 and 397-399. *)
Definition m_flip (n : nat) (x : mst) : outcome mst :=
  let* q := mget x n in
  let (ad, o) := q in
  ostore x ad (mkObj (o_atoms o) (o_w1 o) (o_w0 o)).

(** The body of the loop of watchedUpdateVar, Formula.cc:388-405. *)
Definition m_visit (v : Z) (p : nat) (x : mst) : outcome mst :=
  let* r := bload (mh x) p in
  let n := c_num r in
  let* q := mget x n in
  let o := snd q in
  let* y := bsat (ms x) (o_w0 o) in
  match y with
  | SatTrue => Ok x
  | _ =>
      let* y := bsat (ms x) (o_w1 o) in
      match y with
      | SatTrue => m_flip n x
      | _ =>
          let* x := if fst (o_w1 o) =? v then m_flip n x else Ok x in
          let* q := mget x n in
          let* z := bsat (ms x) (o_w0 (snd q)) in
          match z with SatFalse => m_swap p x | _ => Ok x end
      end
  end.

(** watchedUpdateVar, Formula.cc:376-408: [next] is read before the step.  The bound on the number of
    iterations is the number of records ever allocated. *)
Fixpoint m_walk (fuel : nat) (v : Z) (x : mst) (current : option nat) : outcome mst :=
  match current with
  | None => Ok x
  | Some p =>
      if bconf (ms x) then Ok x
      else match fuel with
           | O => OutOfFuel
           | S f =>
               let* r := bload (mh x) p in
               let* x := m_visit v p x in
               m_walk f v x (r_next r)
           end
  end.
Definition m_update (v : Z) (x : mst) : outcome mst := m_walk (bbrk (mh x)) v x (btop (mh x) v).

(** watchedReduceTheory, Formula.cc:602-623. *)
Definition m_reduce (x : mst) (l : blit) : outcome mst :=
  let s := ms x in
  do* bvar s (fst l) in
  let v := fst l in
  let change := Z.ldiff (bcur s v) (snd l) in
  if change =? 0 then Ok x
  else
    let i := baix s + 1 in
    let s := set_baix s i in
    let s := set_bnodes s (upd1 (bnodes s) v (mkNode i (blevel s) (buc s) change :: bnodes s v)) in
    let s := set_bcur s (upd1 (bcur s) v (Z.land (bcur s v) (snd l))) in
    m_update v (set_ms x s).

(** WatchedUnitPropagation, Formula.cc:517-547. *)
Fixpoint m_prop (fuel : nat) (x : mst) : outcome mst :=
  match fuel with
  | O => OutOfFuel
  | S f =>
      if bconf (ms x) then Ok (set_ms x (set_bulist (ms x) []))
      else match bulist (ms x) with
      | [] => Ok x
      | n :: rest =>
          let x := set_ms x (set_bulist (set_buc (ms x) (Some n)) rest) in
          let* q := mget x n in
          let o := snd q in
          let* y := bsat (ms x) (o_w0 o) in
          match y with
          | SatUn =>
              let* x := m_reduce x (o_w0 o) in
              m_prop f (set_ms x (set_bunits (ms x) (bunits (ms x) + 1)))
          | _ =>
              if Nat.ltb 1 (length (o_atoms o)) then
                let* y := bsat (ms x) (o_w1 o) in
                match y with
                | SatUn =>
                    let* x := m_reduce x (o_w1 o) in
                    m_prop f (set_ms x (set_bunits (ms x) (bunits (ms x) + 1)))
                | _ => m_prop f x
                end
              else m_prop f x
          end
      end
  end.

(** ** Learning *)

(** learnClause, Formula.cc:344-372, for the clause at the address [a]. *)
Definition m_learn (c : bcfg) (x : mst) (a : nat) : outcome mst :=
  let x := set_mcl x (mcl x ++ [a]) in
  let n := pred (length (mcl x)) in
  let* o := oload x a in
  let* x := m_add x (fst (o_w0 o)) n in
  let* x := if Nat.ltb 1 (length (o_atoms o)) then m_add x (fst (o_w1 o)) n else Ok x in
  let* s := foldM bump_lit (o_atoms o) (ms x) in
  let s := set_bsc s (fun v j => f64_div (bsc s v j) f64_two) in
  if blen c then Ok (set_ms x s) else Undef NoReturn.

(** analyzeConflict, Formula.cc:428-474, for the clause at the address [a]; [del] is
    freeClauseAfterUse. *)
Fixpoint m_analyze (fuel : nat) (c : bcfg) (x : mst) (a : nat) (del : bool) : outcome (mst * nat) :=
  match fuel with
  | O => OutOfFuel
  | S f =>
      let* o := oload x a in
      let* p := bpotent (ms x) (o_atoms o) (o_w1 o) in
      if p then let* x := m_learn c x a in Ok (x, a)
      else
        let* nd := bnode_of (ms x) (o_w0 o) in
        match nreason nd with
        | None => Undef OobClause
        | Some n =>
            let* r := mget x n in
            let (b, x) := onew x o_empty in
            let res := bresolve (o_atoms o) (o_w0 o) (o_atoms (snd r)) in
            let* x := ostore x b (mkObj res bnolit bnolit) in
            let* w := bassign_watched (ms x) res in
            let* x := ostore x b (mkObj res (fst w) (snd w)) in
            let* x := if del then ofree x a else Ok x in
            m_analyze f c x b true
        end
  end.

(** ** The search *)

(** The treatment of a conflict above level 0, Formula.cc:651-687; [rc] is restartCount. *)
Definition m_conflict (fuel : nat) (c : bcfg) (r rc : Z) (x : mst) : outcome (mst * Z) :=
  let* a := mptr x (bcc (ms x)) in
  let* q := m_analyze fuel c x a false in
  let (x, a) := q in
  let* o := oload x a in
  let* lev := if Nat.ltb 1 (length (o_atoms o)) then let* nd := bnode_of (ms x) (o_w1 o) in Ok (nlev nd) else Ok 0 in
  let s := set_blevel (ms x) lev in
  let s := set_bback s (bback s + 1) in
  let s := set_bconf s false in
  let s0 := bundo s in
  let n := pred (length (mcl x)) in
  if bback s =? rc then
    let s := set_brest s0 (brest s0 + 1) in
    let s := set_bulist s (if blevel s =? 0 then [n] else []) in
    Ok (set_ms x (set_blevel s 0), bback s + r)
  else Ok (set_ms x (set_bulist s0 [n]), rc).

(** One iteration of WatchedLiterals, Formula.cc:634-708. *)
Definition m_iter (fuel : nat) (c : bcfg) (clk : nat -> bool) (r rc : Z) (x : mst)
  : outcome (verdict * mst + Z * mst) :=
  let late := clk (btick (ms x)) in
  let x := set_ms x (set_btick (ms x) (S (btick (ms x)))) in
  if late then Ok (inl (TIMEOUT, x))
  else if bconf (ms x) && (blevel (ms x) =? 0) then Ok (inl (UNSAT, x))
  else
    let* q := if bconf (ms x) then m_conflict fuel c r rc x else Ok (x, rc) in
    let (x, rc) := q in
    let* x := match bulist (ms x) with [] => Ok x | _ => m_prop fuel x end in
    if bconf (ms x) then Ok (inr (rc, x))
    else
      let* q := m_choose c x in
      let (x, l) := q in
      if fst l =? -1 then Ok (inl (SAT, x))
      else
        let s := set_bdec (ms x) (bdec (ms x) + 1) in
        let s := set_blevel s (blevel s + 1) in
        let s := set_buc s None in
        let* x := m_reduce (set_ms x s) l in
        Ok (inr (rc, x)).

(** WatchedLiterals, Formula.cc:626-710. *)
Fixpoint m_loop (fuel : nat) (c : bcfg) (clk : nat -> bool) (r rc : Z) (x : mst) : outcome (verdict * mst) :=
  match fuel with
  | O => OutOfFuel
  | S f => let* q := m_iter fuel c clk r rc x in
      match q with
      | inl y => Ok y
      | inr (rc, x) => m_loop f c clk r rc x
      end
  end.

(** SolveFinite, bitvec/SolveFinite.cc:21-73: what is printed, and the memory at the end. *)
Definition m_solve (fuel : nat) (c : bcfg) (clk : nat -> bool) (r : Z) (p : problem) : outcome (breport * mst) :=
  let* x := m_build (items_of p) in
  let* q := m_loop fuel c clk r r x in
  let (v, x) := q in
  let s := ms x in
  let mk md ver := mkBreport v (bdec s) (bunits s) (bback s) (bnv s) (Z.of_nat (length (mcl x))) (brest s) md ver in
  match v with
  | SAT => let* b := m_verify x in Ok (mk (bprint s) (Some b), x)
  | _ => Ok (mk [] None, x)
  end.
