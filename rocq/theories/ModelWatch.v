(** * Watched literals

    Models src/Formula.cc: watchedFalsifyLiteral, SwapPointer, watchedReduceTheory,
    watchedUndoTheory, WatchedUnitPropagation, and Variable::removeRecord.  The doubly linked
    watch lists are modelled by lists of clause ids (ModelHeap.v has the linked lists). *)

From Verif Require Import Spec Outcome State ModelCounter ModelHeur ModelLearn.

(** Remove the first occurrence; None if absent. *)
Fixpoint remove_one (n : nat) (l : list nat) : option (list nat) :=
  match l with
  | [] => None
  | m :: l' => if Nat.eqb m n then Some l'
               else option_map (cons m) (remove_one n l')
  end.

(** Variable::removeRecord, Variable.cc:127-142.  [key] is the literal whose list contains
    the node, [l] the literal whose list it is removed from (they must agree). *)
Definition remove_record (s : state) (key l : lit) (n : nat) : outcome state :=
  do* chk (tr s) l in
  if lit_eqb key l then
    match remove_one n (wls s l) with
    | Some ns => Ok (set_wls s (updl (wls s) l ns))
    | None => Undef BadList
    end
  else Undef BadList.

(** The search loop of SwapPointer, Formula.cc:1239-1253: first literal that is not
    falsified and differs from the other watched literal. *)
Fixpoint find_repl (t : trail) (w : lit) (ls : clause) : outcome (option lit) :=
  match ls with
  | [] => Ok None
  | l :: ls' =>
      let* r := sat t l in
      match r with
      | SatFalse => find_repl t w ls'
      | _ => if lit_eqb l w then find_repl t w ls' else Ok (Some l)
      end
  end.

(** SwapPointer, Formula.cc:1224-1263; [key] is the literal whose watch list the node
    [current] is on, [n] its clause number. *)
Definition swap_pointer (s : state) (key : lit) (n : nat) : outcome state :=
  let* ls := getcl s n in
  let a := w0 s n in
  let b := w1 s n in
  let* r := if Nat.ltb 1 (length ls) then sat (tr s) b else Ok SatFalse in
  match r with
  | SatUn =>
      let* o := find_repl (tr s) b ls in
      match o with
      | Some l =>
          let* s := remove_record s key a n in
          let* s := add_record s l n in
          Ok (set_w0 s (updn (w0 s) n l))
      | None => Ok (set_ulist s (n :: ulist s))
      end
  | _ => Ok (set_confcl (set_conflict s true) n)
  end.

(** Exchange the two watched literals of a clause. *)
Definition swap_w (s : state) (n : nat) : state :=
  let a := w0 s n in
  let b := w1 s n in
  set_w1 (set_w0 s (updn (w0 s) n b)) (updn (w1 s) n a).

(** watchedFalsifyLiteral, body of the loop, Formula.cc:932-963 (loop condition !CONFLICT as
    in [exclude]). *)
Definition wfalsify_step (l : lit) (s : state) (n : nat) : outcome state :=
  if conflict s then Ok s
  else
    let* ls := getcl s n in
    let* r := sat (tr s) (w0 s n) in
    match r with
    | SatTrue => Ok s
    | _ =>
        let* r2 := if Nat.ltb 1 (length ls) then sat (tr s) (w1 s n) else Ok SatFalse in
        match r2 with
        | SatTrue => Ok (swap_w s n)
        | _ =>
            let s := if lit_eqb (w1 s n) l then swap_w s n else s in
            swap_pointer s l n
        end
    end.

(** watchedFalsifyLiteral, Formula.cc:921-967.  The traversal saves the successor before
    each step, and a step removes at most the node it works on from this list, so it visits
    the nodes present at the start. *)
Definition wfalsify (s : state) (l : lit) : outcome state :=
  do* chk (tr s) l in
  foldM (wfalsify_step l) (wls s l) s.

Definition wassign_atom (c : cfg) (s : state) (v d : Z) (a : aval) : outcome state :=
  let l := mkLit v d (match a with Pos => true | _ => false end) in
  wfalsify (mark c s v d a) (neg l).

(** Body of the domain loops, Formula.cc:1289-1318. *)
Definition wexclude (c : cfg) (v : Z) (s : state) (i : Z) : outcome state :=
  if conflict s then Ok s
  else match ASG (tr s) v i with
       | Un => wassign_atom c s v i Neg
       | _ => Ok s
       end.

(** watchedReduceTheory, EQUAL, Formula.cc:1267-1318. *)
Definition wreduce_pos (c : cfg) (s : state) (v d : Z) : outcome state :=
  do* chk (tr s) (mkLit v d true) in
  let s := push_dst s (mkLit v d true) in
  let* s := wassign_atom c s v d Pos in
  let* s := foldM (wexclude c v) (zrange 0 d) s in
  foldM (wexclude c v) (zrange (d + 1) (DOM (tr s) v - (d + 1))) s.

(** watchedReduceTheory, not EQUAL, Formula.cc:1319-1349. *)
Definition wreduce_neg (c : cfg) (s : state) (v d : Z) : outcome state :=
  do* chk (tr s) (mkLit v d false) in
  let s := push_dst s (mkLit v d false) in
  let* s := wassign_atom c s v d Neg in
  match check_entail (tr s) v with
  | Some e =>
      let s := set_entails s (entails s + 1) in
      let s := set_uclause s REnt in
      wreduce_pos c s v e
  | None => Ok s
  end.

(** watchedReduceTheory, Formula.cc:1265-1351. *)
Definition wreduce_theory (c : cfg) (s : state) (l : lit) : outcome state :=
  if leq l then wreduce_pos c s (lvar l) (lval l) else wreduce_neg c s (lvar l) (lval l).

(** watchedUndoTheory, Formula.cc:969-993. *)
Definition wundo1 (lev : Z) (s : state) (a : Z * Z) : outcome state :=
  let (v, d) := a in
  Ok (if lev <? ALEV (tr s) v d then unmark s v d else s).
Definition wundo_theory (s : state) (lev : Z) : outcome state :=
  let* s := foldM (wundo1 lev) (atoms_from (tr s) 1) s in
  prune_dst s.

(** WatchedUnitPropagation, Formula.cc:1165-1189. *)
Fixpoint wunit_propagation (fuel : nat) (c : cfg) (s : state) : outcome state :=
  match fuel with
  | O => OutOfFuel
  | S fuel' =>
      if conflict s then Ok s
      else match ulist s with
           | [] => Ok s
           | n :: rest =>
               let s := set_uclause s (RCls n) in
               let s := set_ulist s rest in
               let* ls := getcl s n in
               let* r := sat (tr s) (w0 s n) in
               match r with
               | SatUn =>
                   let* s := wreduce_theory c s (w0 s n) in
                   wunit_propagation fuel' c (set_units s (units s + 1))
               | _ =>
                   let* r2 := if Nat.ltb 1 (length ls) then sat (tr s) (w1 s n)
                              else Ok SatFalse in
                   match r2 with
                   | SatUn =>
                       let* s := wreduce_theory c s (w1 s n) in
                       wunit_propagation fuel' c (set_units s (units s + 1))
                   | _ => wunit_propagation fuel' c s
                   end
               end
           end
  end.
