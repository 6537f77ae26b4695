(** * Counter-based propagation

    Models src/Formula.cc: reduceTheory, satisfyClauses, removeLiteral, unsatisfyClauses,
    addLiteral, undoTheory, checkEntail, unitPropagation, verifyModel, checkSat.
    LOG output is not modelled. *)

From Verif Require Import Spec Outcome State.

(** heuristic == Heuristic::BK *)
Definition is_bk (c : cfg) : bool := heur_eqb (heur c) BK.

(** DECSTACK.push_back (Formula.cc:435, 496, 1275, 1328). *)
Definition push_dst (s : state) (l : lit) : state :=
  let t := tr s in
  set_tr s (mkTrail (NV t) (DOM t) (VAL t) (ASG t) (ALEV t) (AIDX t) (CID t) (DST t ++ [l])).

(** The block that records an atom as assigned, Formula.cc:437-445 ([Pos]),
    458-465, 475-483, 498-505 ([Neg]); in the watched version Formula.cc:1277-1281,
    1293-1298, 1310-1314, 1330-1334 (there without the counters; the heuristic is then not
    BK).  VAL is only written for [Pos] (Formula.cc:443, 1279). *)
Definition mark (c : cfg) (s : state) (v d : Z) (a : aval) : state :=
  let s :=
    if is_bk c then
      set_cnt s (updl (updl (cnt s) (mkLit v d true) 0) (mkLit v d false) 0)
    else s in
  let t := tr s in
  set_tr s
    (mkTrail (NV t) (DOM t)
       (match a with Pos => upd1 (VAL t) v d | _ => VAL t end)
       (upd2 (ASG t) v d a)
       (upd2 (ALEV t) v d (level s))
       (upd2 (AIDX t) v d (Z.of_nat (length (DST t)) - 1))
       (upd2 (CID t) v d (uclause s))
       (DST t)).

(** Inner loop of satisfyClauses, Formula.cc:550-566. *)
Definition dec_count (s : state) (l : lit) : outcome state :=
  do* chk (tr s) l in
  Ok (if lit_un (tr s) l then set_cnt s (updl (cnt s) l (cnt s l - 1)) else s).

(** satisfyClauses, body of the loop, Formula.cc:539-569. *)
Definition satisfy_step (c : cfg) (s : state) (n : nat) : outcome state :=
  let* cls := getcl s n in
  if clev s n =? -1 then
    let s := set_clev s (updn (clev s) n (level s)) in
    let s := set_num s (updn (num s) n 0) in
    if is_bk c then foldM dec_count cls s else Ok s
  else Ok s.

(** satisfyClauses, Formula.cc:524-570. *)
Definition satisfy_clauses (c : cfg) (s : state) (l : lit) : outcome state :=
  do* chk (tr s) l in
  foldM (satisfy_step c) (rec s l) s.

(** removeLiteral, body of the loop, Formula.cc:588-607. *)
Definition remove_step (s : state) (n : nat) : outcome state :=
  do* getcl s n in
  if clev s n =? -1 then
    let k := num s n - 1 in
    let s := set_num s (updn (num s) n k) in
    let s := if k =? 1 then set_ulist s (n :: ulist s) else s in
    Ok (if k =? 0 then set_confcl (set_conflict s true) n else s)
  else Ok s.

(** removeLiteral, Formula.cc:575-608. *)
Definition remove_literal (s : state) (l : lit) : outcome state :=
  do* chk (tr s) l in
  foldM remove_step (rec s l) s.

(** Assigning one atom and updating the clauses: [mark] followed by satisfyClauses of the
    literal made true and removeLiteral of its complement (Formula.cc:437-449, 458-468,
    475-486, 498-508). *)
Definition assign_atom (c : cfg) (s : state) (v d : Z) (a : aval) : outcome state :=
  let l := mkLit v d (match a with Pos => true | _ => false end) in
  let s := mark c s v d a in
  let* s := satisfy_clauses c s l in
  remove_literal s (neg l).

(** Body of the two domain loops of reduceTheory, Formula.cc:454-488 (the loop condition
    [! CONFLICT] is tested by each iteration; once set it stays set, so skipping the
    remaining iterations is the same as leaving the loop). *)
Definition exclude (c : cfg) (v : Z) (s : state) (i : Z) : outcome state :=
  if conflict s then Ok s
  else match ASG (tr s) v i with
       | Un => assign_atom c s v i Neg
       | _ => Ok s
       end.

(** reduceTheory with equals = true, Formula.cc:426-489. *)
Definition reduce_pos (c : cfg) (s : state) (v d : Z) : outcome state :=
  do* chk (tr s) (mkLit v d true) in
  let s := push_dst s (mkLit v d true) in
  let* s := assign_atom c s v d Pos in
  let* s := foldM (exclude c v) (zrange 0 d) s in
  foldM (exclude c v) (zrange (d + 1) (DOM (tr s) v - (d + 1))) s.

(** checkEntail, Formula.cc:286-320: the only unassigned value, if there is exactly one.
    [found] is (flag, domainvalue); leaving the loop early gives None. *)
Fixpoint entail_loop (t : trail) (v : Z) (js : list Z) (found : option Z) : option Z :=
  match js with
  | [] => found
  | j :: js' =>
      match ASG t v j with
      | Un => match found with
              | None => entail_loop t v js' (Some j)
              | Some _ => None
              end
      | _ => entail_loop t v js' found
      end
  end.
Definition check_entail (t : trail) (v : Z) : option Z :=
  entail_loop t v (zrange 0 (DOM t v)) None.

(** reduceTheory with equals = false, Formula.cc:490-520.  The recursive call is always
    with equals = true. *)
Definition reduce_neg (c : cfg) (s : state) (v d : Z) : outcome state :=
  do* chk (tr s) (mkLit v d false) in
  let s := push_dst s (mkLit v d false) in
  let* s := assign_atom c s v d Neg in
  match check_entail (tr s) v with
  | Some e =>
      let s := set_entails s (entails s + 1) in
      let s := set_uclause s REnt in
      reduce_pos c s v e
  | None => Ok s
  end.

(** reduceTheory, Formula.cc:424-521. *)
Definition reduce_theory (c : cfg) (s : state) (l : lit) : outcome state :=
  if leq l then reduce_pos c s (lvar l) (lval l) else reduce_neg c s (lvar l) (lval l).

(** addLiteral, body of the loop, Formula.cc:671-682. *)
Definition add_step (c : cfg) (l : lit) (s : state) (n : nat) : outcome state :=
  do* getcl s n in
  if clev s n =? -1 then
    let s := set_num s (updn (num s) n (num s n + 1)) in
    Ok (if is_bk c then set_cnt s (updl (cnt s) l (cnt s l + 1)) else s)
  else Ok s.

(** addLiteral, Formula.cc:658-683. *)
Definition add_literal (c : cfg) (s : state) (l : lit) : outcome state :=
  do* chk (tr s) l in
  foldM (add_step c l) (rec s l) s.

(** unsatisfyClauses, inner loop, Formula.cc:630-649. *)
Definition inc_count (c : cfg) (lev : Z) (n : nat) (s : state) (l : lit) : outcome state :=
  do* chk (tr s) l in
  if (lev <? ALEV (tr s) (lvar l) (lval l)) || lit_un (tr s) l then
    let s := set_num s (updn (num s) n (num s n + 1)) in
    Ok (if is_bk c then set_cnt s (updl (cnt s) l (cnt s l + 1)) else s)
  else Ok s.

(** unsatisfyClauses, body of the loop, Formula.cc:626-654. *)
Definition unsat_step (c : cfg) (lev : Z) (s : state) (n : nat) : outcome state :=
  let* cls := getcl s n in
  if lev <? clev s n then
    let* s := foldM (inc_count c lev n) cls s in
    Ok (set_clev s (updn (clev s) n (-1)))
  else Ok s.

(** unsatisfyClauses, Formula.cc:612-655. *)
Definition unsatisfy_clauses (c : cfg) (lev : Z) (s : state) (l : lit) : outcome state :=
  do* chk (tr s) l in
  foldM (unsat_step c lev) (rec s l) s.

(** Body of the first double loop of undoTheory, Formula.cc:879-885. *)
Definition undo1 (c : cfg) (lev : Z) (s : state) (a : Z * Z) : outcome state :=
  let (v, d) := a in
  if lev <? ALEV (tr s) v d then
    match ASG (tr s) v d with
    | Neg => add_literal c s (mkLit v d true)
    | _ => add_literal c s (mkLit v d false)
    end
  else Ok s.

(** Formula.cc:900-903 and 978-981: the atom becomes unassigned (ATOMINDEX keeps its value). *)
Definition unmark (s : state) (v d : Z) : state :=
  let t := tr s in
  set_tr s
    (mkTrail (NV t) (DOM t) (upd1 (VAL t) v (-1)) (upd2 (ASG t) v d Un)
       (upd2 (ALEV t) v d (-10)) (AIDX t) (upd2 (CID t) v d RUndef) (DST t)).

(** Body of the second double loop of undoTheory, Formula.cc:893-904. *)
Definition undo2 (c : cfg) (lev : Z) (s : state) (a : Z * Z) : outcome state :=
  let (v, d) := a in
  if lev <? ALEV (tr s) v d then
    let* s := match ASG (tr s) v d with
              | Neg => unsatisfy_clauses c lev s (mkLit v d false)
              | _ => unsatisfy_clauses c lev s (mkLit v d true)
              end in
    Ok (unmark s v d)
  else Ok s.

(** The loop that erases the unassigned entries of DECSTACK, Formula.cc:907-915 and
    986-992.  Erasing from the back towards the front the entries whose atom is unassigned
    is a filter. *)
Definition prune_dst (s : state) : outcome state :=
  let t := tr s in
  if forallb (lit_ok t) (DST t) then
    Ok (set_tr s (mkTrail (NV t) (DOM t) (VAL t) (ASG t) (ALEV t) (AIDX t) (CID t)
                    (filter (fun l => negb (lit_un t l)) (DST t))))
  else Undef OobAtom.

(** undoTheory, Formula.cc:870-916. *)
Definition undo_theory (c : cfg) (s : state) (lev : Z) : outcome state :=
  let* s := foldM (undo1 c lev) (atoms_from (tr s) 1) s in
  let* s := foldM (undo2 c lev) (atoms_from (tr s) 1) s in
  prune_dst s.

(** The loop of unitPropagation that looks for the first unassigned literal,
    Formula.cc:1621-1632. *)
Fixpoint first_un (t : trail) (ls : clause) : outcome (option lit) :=
  match ls with
  | [] => Ok None
  | l :: ls' =>
      do* chk t l in
      if lit_un t l then Ok (Some l) else first_un t ls'
  end.

(** unitPropagation, Formula.cc:1604-1635. *)
Fixpoint unit_propagation (fuel : nat) (c : cfg) (s : state) : outcome state :=
  match fuel with
  | O => OutOfFuel
  | S fuel' =>
      if conflict s then Ok s
      else match ulist s with
           | [] => Ok s
           | n :: rest =>
               let s := set_uclause s (RCls n) in
               let s := set_ulist s rest in
               let* cls := getcl s n in
               if clev s n =? -1 then
                 let* o := first_un (tr s) cls in
                 match o with
                 | Some l =>
                     let s := set_units s (units s + 1) in
                     let* s := reduce_theory c s l in
                     unit_propagation fuel' c s
                 | None => unit_propagation fuel' c s
                 end
               else unit_propagation fuel' c s
           end
  end.

(** verifyModel, Formula.cc:243-266. *)
Fixpoint verify_clause (t : trail) (ls : clause) : outcome bool :=
  match ls with
  | [] => Ok false
  | l :: ls' =>
      do* chk t l in
      if lit_true t l then Ok true else verify_clause t ls'
  end.
Fixpoint verify_clauses (t : trail) (cs : list clause) : outcome bool :=
  match cs with
  | [] => Ok true
  | c :: cs' =>
      let* b := verify_clause t c in
      if b then verify_clauses t cs' else Ok false
  end.
Definition verify_model (s : state) : outcome bool := verify_clauses (tr s) (cl s).

(** checkSat, Formula.cc:268-282 (not called by the search). *)
Definition check_sat (s : state) : bool :=
  forallb (fun n => negb (clev s n =? -1)) (seq 0 (length (cl s))).
