(** * Conflict analysis and clause learning

    Models src/Formula.cc: falsifies, hasAtom, resolve, potent, maxLit, assignWatched,
    learnClause, analyzeConflict, backtrackLevel, and Variable::addRecord. *)

From Coq Require Import Floats.SpecFloat.
From Verif Require Import Spec Outcome State ModelCounter ModelHeur.

(** falsifies, Formula.cc:1136-1145. *)
Definition falsifies (l d : lit) : bool :=
  if negb (lvar l =? lvar d) then false
  else if negb (lval l =? lval d) && (negb (leq l) || negb (leq d)) then false
  else if (lval l =? lval d) && Bool.eqb (leq l) (leq d) then false
  else true.

(** hasAtom, Formula.cc:686-698. *)
Definition has_atom (c : clause) (l : lit) : bool := existsb (lit_eqb l) c.

(** resolve, Formula.cc:700-729. *)
Definition resolve (c : clause) (l : lit) (r : clause) : clause :=
  fold_left (fun acc x => if negb (falsifies x l) && negb (has_atom acc x)
                          then acc ++ [x] else acc)
            r (filter (fun x => negb (falsifies x (neg l))) c).

(** ATOMLEVEL / ATOMINDEX of the atom of a literal. *)
Definition llev (t : trail) (l : lit) : Z := ALEV t (lvar l) (lval l).
Definition lidx (t : trail) (l : lit) : Z := AIDX t (lvar l) (lval l).

(** The counting loop of potent, Formula.cc:749-768. *)
Fixpoint potent_loop (t : trail) (lev : Z) (ls : clause) (flag : bool) : outcome bool :=
  match ls with
  | [] => Ok flag
  | l :: ls' =>
      do* chk t l in
      if llev t l =? lev then
        if flag then Ok false else potent_loop t lev ls' true
      else potent_loop t lev ls' flag
  end.

(** potent, Formula.cc:733-770; [w] is WATCHED[1] of the clause. *)
Definition potent (c : cfg) (s : state) (ls : clause) (w : lit) : outcome bool :=
  if Nat.eqb (length ls) 1 then Ok true
  else if watch c then
    do* chk (tr s) w in Ok (llev (tr s) w <? level s)
  else potent_loop (tr s) (level s) ls false.

(** maxLit, Formula.cc:1082-1106: position of the literal falsified last ([i] position,
    [best] = (atom_index, max_decision_index), which start at 0). *)
Fixpoint max_lit_loop (t : trail) (ls : clause) (i : nat) (best : nat * Z) : outcome nat :=
  match ls with
  | [] => Ok (fst best)
  | l :: ls' =>
      do* chk t l in
      max_lit_loop t ls' (S i)
        (if snd best <? lidx t l then (i, lidx t l) else best)
  end.
Definition max_lit (t : trail) (ls : clause) : outcome nat := max_lit_loop t ls 0 (O, 0).

(** assignWatched, Formula.cc:1108-1134. Accumulator: (w1, max), (w2, second max). *)
Fixpoint assign_watched_loop (t : trail) (ls : clause) (b1 b2 : lit * Z) : outcome (lit * lit) :=
  match ls with
  | [] => Ok (fst b1, fst b2)
  | l :: ls' =>
      do* chk t l in
      let i := lidx t l in
      if snd b1 <? i then assign_watched_loop t ls' (l, i) (fst b1, snd b1)
      else if snd b2 <? i then assign_watched_loop t ls' b1 (l, i)
      else assign_watched_loop t ls' b1 b2
  end.
Definition assign_watched (t : trail) (ls : clause) : outcome (lit * lit) :=
  assign_watched_loop t ls (nolit, -1) (nolit, -1).

(** Variable::addRecord, Variable.cc:102-124: new node at the front of the list. *)
Definition add_record (s : state) (l : lit) (n : nat) : outcome state :=
  do* chk (tr s) l in
  Ok (set_wls s (updl (wls s) l (n :: wls s l))).

(** VSIDS_SCORE++ (as a double). *)
Definition bump (s : state) (l : lit) : state :=
  set_vs s (updl (vs s) l (f64_add (vs s l) f64_one)).

(** VSIDS-positive: a negative literal counts for all other values, Formula.cc:812-815 and
    169-172. *)
Definition bump_others (s : state) (v d : Z) : state :=
  fold_left (fun s j => if j =? d then s else bump s (mkLit v j true))
            (zrange 0 (DOM (tr s) v)) s.

(** Body of the loop of learnClause over the atoms of the new clause, Formula.cc:791-818. *)
Definition learn_atom (c : cfg) (n : nat) (s : state) (l : lit) : outcome state :=
  do* chk (tr s) l in
  let s := if watch c then s else set_rec s (updl (rec s) l (rec s l ++ [n])) in
  Ok (match heur c with
      | VSIDS => bump s l
      | VSIDS_pos => if leq l then bump s l else bump_others s (lvar l) (lval l)
      | _ => s
      end).

(** Halving of the scores, Formula.cc:820-834. *)
Definition halve (s : state) (l : lit) : state :=
  set_vs s (updl (vs s) l (f64_div (vs s l) f64_two)).
Definition decay (c : cfg) (s : state) : state :=
  match heur c with
  | VSIDS => fold_left (fun s a => halve (halve s (mkLit (fst a) (snd a) true))
                                         (mkLit (fst a) (snd a) false))
                       (atoms_from (tr s) 0) s
  | VSIDS_pos => fold_left (fun s a => halve s (mkLit (fst a) (snd a) true))
                           (atoms_from (tr s) 0) s
  | _ => s
  end.

(** learnClause, Formula.cc:772-835.  The function is declared to return a Clause* but has
    no return statement; reaching its end is undefined behaviour in C++ ([NoReturn]) unless
    the model is told to be lenient.  The result is not used by the caller. *)
Definition learn_clause (c : cfg) (s : state) (ls : clause) (a b : lit) : outcome state :=
  let n := length (cl s) in
  let s := set_cl s (cl s ++ [ls]) in
  let s := set_num s (updn (num s) n 0) in
  let s := set_clev s (updn (clev s) n (-1)) in
  let s := set_w0 s (updn (w0 s) n a) in
  let s := set_w1 s (updn (w1 s) n b) in
  let* s := if watch c then
              let* s := add_record s a n in
              if Nat.ltb 1 (length ls) then add_record s b n else Ok s
            else Ok s in
  let* s := foldM (learn_atom c n) ls s in
  let s := decay c s in
  if lenient c then Ok s else Undef NoReturn.

(** The reason clause of a falsified literal, Formula.cc:1028-1048. *)
Definition reason_clause (s : state) (l : lit) : outcome clause :=
  do* chk (tr s) l in
  match CID (tr s) (lvar l) (lval l) with
  | RDec =>
      let i := lidx (tr s) l in
      if i <? 0 then Undef OobStack
      else match nth_error (DST (tr s)) (Z.to_nat i) with
           | Some f => Ok [mkLit (lvar f) (lval f) true; mkLit (lvar f) (lval f) false]
           | None => Undef OobStack
           end
  | REnt => Ok (map (fun i => mkLit (lvar l) i true) (zrange 0 (DOM (tr s) (lvar l))))
  | RCls n => getcl s n
  | RUndef => Undef OobClause
  end.

(** analyzeConflict, Formula.cc:997-1078.  [ls], [a], [b] are ATOM_LIST, WATCHED[0] and
    WATCHED[1] of the clause; [temp] is freeClauseAfterUse: the clause is a temporary
    resolvent.  If a clause that is already in CLAUSELIST were learnt again, the same object
    would be registered twice: [Aliased].  Returns the state after learnClause and the learnt
    clause with its watched literals.  The objects that are allocated and deleted on the way are
    in ModelObj.v. *)
Fixpoint analyze (fuel : nat) (c : cfg) (s : state) (ls : clause) (a b : lit) (temp : bool)
  : outcome (state * (clause * (lit * lit))) :=
  match fuel with
  | O => OutOfFuel
  | S fuel' =>
      let* p := potent c s ls b in
      if p then
        if temp then
          let* s := learn_clause c s ls a b in
          Ok (s, (ls, (a, b)))
        else Undef Aliased
      else
        let* last :=
          if watch c then Ok a
          else let* i := max_lit (tr s) ls in
               match nth_error ls i with
               | Some l => Ok l
               | None => Undef OobClause
               end in
        let* r := reason_clause s last in
        let res := resolve ls last r in
        let* w := if watch c then assign_watched (tr s) res else Ok (nolit, nolit) in
        analyze fuel' c s res (fst w) (snd w) true
  end.

(** backtrackLevel, Formula.cc:837-868. *)
Definition backtrack_level (s : state) (ls : clause) : outcome Z :=
  let* m := foldM (fun m l =>
              do* chk (tr s) l in
              let k := llev (tr s) l in
              Ok (if (k <? level s) && (m <? k) then k else m)) ls (-1) in
  Ok (if m =? -1 then 0 else m).
