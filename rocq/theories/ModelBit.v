(** * The second solver (bitvec/)

    Models bitvec/Formula.cc, bitvec/Variable.cc, bitvec/Clause.cc, bitvec/Literal.h and
    bitvec/SolveFinite.cc: a watched-literal solver whose literals are sets of values of one
    variable (bitset<64>), with the current domain of each variable as a bitset.  It does not
    share code with src/. *)

From Coq Require Import Floats.SpecFloat.
From Verif Require Import Spec Outcome State ModelHeur ModelSearch ModelBuild.

(** bitset<MAX_DOMAIN> is the integer with these binary digits (bitvec/Literal.h:23,43).
    set, reset and test throw out_of_range for positions outside 0..63 (nobody catches it). *)
Definition max_domain : Z := 64.
Definition bit_ok (d : Z) : bool := (0 <=? d) && (d <? max_domain).

(** Literal, bitvec/Literal.h:34-75: VAR and VALS.  Literal() has VAR = -1 and the empty set. *)
Definition blit : Type := (Z * Z)%type.
Definition bnolit : blit := (-1, 0).
Definition bclause := list blit.

(** IGNode, bitvec/Variable.h:42-55; [None] is the reason -1. *)
Record node := mkNode { nidx : Z; nlev : Z; nreason : option nat; nvals : Z }.

(** The members of Formula (bitvec/Formula.h:57-74), Variable (bitvec/Variable.h:77-85) and
    Clause (bitvec/Clause.h:40-43).
    - [bnv]: VARLIST.size() - 1
    - [bdom]: DOMAINSIZE
    - [bcur]: CURRENT_DOMAIN
    - [bnodes]: graphNodes, back first
    - [brec]: VARREC, front of the linked list first (as a plain list)
    - [bsc]: VSIDS_SCORE
    - [bcl]: CLAUSELIST[..]->ATOM_LIST
    - [bw0], [bw1]: CLAUSELIST[..]->WATCHED
    - [blevel], [bulist], [bconf], [bcc], [baix]: LEVEL, UNITLIST (front first), CONFLICT,
      CONFLICTINGCLAUSE (meaningful only if CONFLICT), ATOMINDEX
    - [buc]: UNITCLAUSE, [None] is -1
    - [bback], [bdec], [bunits], [brest]: BACKTRACKS, DECISIONS, UNITS, RESTARTS (ENTAILS stays 0)
    - [btick]: number of clock checks made so far (not a member) *)
Record bst := mkB {
  bnv : Z;
  bdom : Z -> Z;
  bcur : Z -> Z;
  bnodes : Z -> list node;
  brec : Z -> list nat;
  bsc : Z -> Z -> spec_float;
  bcl : list bclause;
  bw0 : nat -> blit;
  bw1 : nat -> blit;
  blevel : Z;
  bulist : list nat;
  buc : option nat;
  bconf : bool;
  bcc : nat;
  baix : Z;
  bback : Z;
  bdec : Z;
  bunits : Z;
  brest : Z;
  btick : nat
}.

Definition set_bnv (s : bst) (x : Z) : bst :=
  mkB x (bdom s) (bcur s) (bnodes s) (brec s) (bsc s) (bcl s) (bw0 s) (bw1 s) (blevel s) (bulist s) (buc s) (bconf s) (bcc s) (baix s) (bback s) (bdec s) (bunits s) (brest s) (btick s).
Definition set_bdom (s : bst) (x : Z -> Z) : bst :=
  mkB (bnv s) x (bcur s) (bnodes s) (brec s) (bsc s) (bcl s) (bw0 s) (bw1 s) (blevel s) (bulist s) (buc s) (bconf s) (bcc s) (baix s) (bback s) (bdec s) (bunits s) (brest s) (btick s).
Definition set_bcur (s : bst) (x : Z -> Z) : bst :=
  mkB (bnv s) (bdom s) x (bnodes s) (brec s) (bsc s) (bcl s) (bw0 s) (bw1 s) (blevel s) (bulist s) (buc s) (bconf s) (bcc s) (baix s) (bback s) (bdec s) (bunits s) (brest s) (btick s).
Definition set_bnodes (s : bst) (x : Z -> list node) : bst :=
  mkB (bnv s) (bdom s) (bcur s) x (brec s) (bsc s) (bcl s) (bw0 s) (bw1 s) (blevel s) (bulist s) (buc s) (bconf s) (bcc s) (baix s) (bback s) (bdec s) (bunits s) (brest s) (btick s).
Definition set_brec (s : bst) (x : Z -> list nat) : bst :=
  mkB (bnv s) (bdom s) (bcur s) (bnodes s) x (bsc s) (bcl s) (bw0 s) (bw1 s) (blevel s) (bulist s) (buc s) (bconf s) (bcc s) (baix s) (bback s) (bdec s) (bunits s) (brest s) (btick s).
Definition set_bsc (s : bst) (x : Z -> Z -> spec_float) : bst :=
  mkB (bnv s) (bdom s) (bcur s) (bnodes s) (brec s) x (bcl s) (bw0 s) (bw1 s) (blevel s) (bulist s) (buc s) (bconf s) (bcc s) (baix s) (bback s) (bdec s) (bunits s) (brest s) (btick s).
Definition set_bcl (s : bst) (x : list bclause) : bst :=
  mkB (bnv s) (bdom s) (bcur s) (bnodes s) (brec s) (bsc s) x (bw0 s) (bw1 s) (blevel s) (bulist s) (buc s) (bconf s) (bcc s) (baix s) (bback s) (bdec s) (bunits s) (brest s) (btick s).
Definition set_bw0 (s : bst) (x : nat -> blit) : bst :=
  mkB (bnv s) (bdom s) (bcur s) (bnodes s) (brec s) (bsc s) (bcl s) x (bw1 s) (blevel s) (bulist s) (buc s) (bconf s) (bcc s) (baix s) (bback s) (bdec s) (bunits s) (brest s) (btick s).
Definition set_bw1 (s : bst) (x : nat -> blit) : bst :=
  mkB (bnv s) (bdom s) (bcur s) (bnodes s) (brec s) (bsc s) (bcl s) (bw0 s) x (blevel s) (bulist s) (buc s) (bconf s) (bcc s) (baix s) (bback s) (bdec s) (bunits s) (brest s) (btick s).
Definition set_blevel (s : bst) (x : Z) : bst :=
  mkB (bnv s) (bdom s) (bcur s) (bnodes s) (brec s) (bsc s) (bcl s) (bw0 s) (bw1 s) x (bulist s) (buc s) (bconf s) (bcc s) (baix s) (bback s) (bdec s) (bunits s) (brest s) (btick s).
Definition set_bulist (s : bst) (x : list nat) : bst :=
  mkB (bnv s) (bdom s) (bcur s) (bnodes s) (brec s) (bsc s) (bcl s) (bw0 s) (bw1 s) (blevel s) x (buc s) (bconf s) (bcc s) (baix s) (bback s) (bdec s) (bunits s) (brest s) (btick s).
Definition set_buc (s : bst) (x : option nat) : bst :=
  mkB (bnv s) (bdom s) (bcur s) (bnodes s) (brec s) (bsc s) (bcl s) (bw0 s) (bw1 s) (blevel s) (bulist s) x (bconf s) (bcc s) (baix s) (bback s) (bdec s) (bunits s) (brest s) (btick s).
Definition set_bconf (s : bst) (x : bool) : bst :=
  mkB (bnv s) (bdom s) (bcur s) (bnodes s) (brec s) (bsc s) (bcl s) (bw0 s) (bw1 s) (blevel s) (bulist s) (buc s) x (bcc s) (baix s) (bback s) (bdec s) (bunits s) (brest s) (btick s).
Definition set_bcc (s : bst) (x : nat) : bst :=
  mkB (bnv s) (bdom s) (bcur s) (bnodes s) (brec s) (bsc s) (bcl s) (bw0 s) (bw1 s) (blevel s) (bulist s) (buc s) (bconf s) x (baix s) (bback s) (bdec s) (bunits s) (brest s) (btick s).
Definition set_baix (s : bst) (x : Z) : bst :=
  mkB (bnv s) (bdom s) (bcur s) (bnodes s) (brec s) (bsc s) (bcl s) (bw0 s) (bw1 s) (blevel s) (bulist s) (buc s) (bconf s) (bcc s) x (bback s) (bdec s) (bunits s) (brest s) (btick s).
Definition set_bback (s : bst) (x : Z) : bst :=
  mkB (bnv s) (bdom s) (bcur s) (bnodes s) (brec s) (bsc s) (bcl s) (bw0 s) (bw1 s) (blevel s) (bulist s) (buc s) (bconf s) (bcc s) (baix s) x (bdec s) (bunits s) (brest s) (btick s).
Definition set_bdec (s : bst) (x : Z) : bst :=
  mkB (bnv s) (bdom s) (bcur s) (bnodes s) (brec s) (bsc s) (bcl s) (bw0 s) (bw1 s) (blevel s) (bulist s) (buc s) (bconf s) (bcc s) (baix s) (bback s) x (bunits s) (brest s) (btick s).
Definition set_bunits (s : bst) (x : Z) : bst :=
  mkB (bnv s) (bdom s) (bcur s) (bnodes s) (brec s) (bsc s) (bcl s) (bw0 s) (bw1 s) (blevel s) (bulist s) (buc s) (bconf s) (bcc s) (baix s) (bback s) (bdec s) x (brest s) (btick s).
Definition set_brest (s : bst) (x : Z) : bst :=
  mkB (bnv s) (bdom s) (bcur s) (bnodes s) (brec s) (bsc s) (bcl s) (bw0 s) (bw1 s) (blevel s) (bulist s) (buc s) (bconf s) (bcc s) (baix s) (bback s) (bdec s) (bunits s) x (btick s).
Definition set_btick (s : bst) (x : nat) : bst :=
  mkB (bnv s) (bdom s) (bcur s) (bnodes s) (brec s) (bsc s) (bcl s) (bw0 s) (bw1 s) (blevel s) (bulist s) (buc s) (bconf s) (bcc s) (baix s) (bback s) (bdec s) (bunits s) (brest s) x.

(** VARLIST[v] (VARLIST[0] is the dummy of Formula.cc:77, with an empty domain). *)
Definition bvar (s : bst) (v : Z) : outcome unit :=
  if (0 <=? v) && (v <=? bnv s) then Ok tt else Undef OobAtom.

(** CLAUSELIST[n]->ATOM_LIST *)
Definition bget (s : bst) (n : nat) : outcome bclause :=
  match nth_error (bcl s) n with Some c => Ok c | None => Undef OobClause end.

(** ** Building the theory *)

(** Clause::addAtom, Clause.cc:34-44. *)
Fixpoint add_atom (c : bclause) (l : blit) : bclause :=
  match c with
  | [] => [l]
  | m :: c' => if fst m =? fst l then (fst m, Z.lor (snd m) (snd l)) :: c' else m :: add_atom c' l
  end.

(** One literal of a clause line, Formula.cc:141-158. *)
Definition bit_lit (s : bst) (l : lit) : outcome blit :=
  if leq l then
    if bit_ok (lval l) then Ok (lvar l, Z.shiftl 1 (lval l)) else Undef BadBit
  else
    do* bvar s (lvar l) in
    if bit_ok (lval l) then Ok (lvar l, Z.clearbit (bcur s (lvar l)) (lval l)) else Undef BadBit.

Definition read_atom (s : bst) (c : bclause) (l : lit) : outcome bclause :=
  let* m := bit_lit s l in Ok (add_atom c m).

(** VSIDS_SCORE[j]++ for the values of a literal, Formula.cc:170-177 and 359-366.  The loop tests
    all positions below DOMAINSIZE. *)
Definition bump_lit (s : bst) (l : blit) : outcome bst :=
  do* bvar s (fst l) in
  if max_domain <? bdom s (fst l) then Undef BadBit
  else Ok (set_bsc s (fun v j =>
    if (v =? fst l) && (0 <=? j) && (j <? bdom s (fst l)) && Z.testbit (snd l) j
    then f64_add (bsc s v j) f64_one else bsc s v j)).

(** Variable::addRecord, Variable.cc:61-76. *)
Definition badd_record (s : bst) (v : Z) (n : nat) : outcome bst :=
  do* bvar s v in Ok (set_brec s (upd1 (brec s) v (n :: brec s v))).

(** A domain line, Formula.cc:112-118 with Variable.cc:25-43: new double[DOMAINSIZE] needs a size that
    is not negative; CURRENT_DOMAIN.set() is shifted right by MAX_DOMAIN-domain. *)
Definition badd_domain (s : bst) (d : Z) : outcome bst :=
  if d <? 0 then Undef BadAlloc
  else
    let v := bnv s + 1 in
    Ok (set_bcur (set_bdom (set_bnv s v) (upd1 (bdom s) v d))
          (upd1 (bcur s) v (if d <=? max_domain then Z.ones d else 0))).

(** A clause line, Formula.cc:123-202. *)
Definition badd_clause (s : bst) (ls : clause) : outcome bst :=
  let n := length (bcl s) in
  let* c := foldM (read_atom s) ls [] in
  let s := set_bcl s (bcl s ++ [c]) in
  let* s := foldM bump_lit c s in
  let s := if Nat.eqb (length c) 1 then set_bulist s (bulist s ++ [n]) else s in
  match c with
  | [] => Undef OobClause
  | a :: c' =>
      let s := set_bw0 s (updn (bw0 s) n a) in
      let* s := badd_record s (fst a) n in
      match c' with
      | [] => Ok s
      | b :: _ =>
          let s := set_bw1 s (updn (bw1 s) n b) in
          badd_record s (fst b) n
      end
  end.

(** Formula.cc:110 and 121 *)
Definition badd_item (s : bst) (i : item) : outcome bst :=
  match i with IDom d => badd_domain s d | ICls c => badd_clause s c end.

(** The state after Formula::Formula (Formula.cc:39-58) and Formula.cc:77. *)
Definition binit : bst :=
  mkB 0 (fun _ => 0) (fun _ => 0) (fun _ => []) (fun _ => []) (fun _ _ => f64_zero) []
    (fun _ => bnolit) (fun _ => bnolit) 0 [] None false 0 0 0 0 0 0 0.

(** The lines of the file in order, Formula.cc:94-203. *)
Definition bbuild (is : list item) : outcome bst := foldM badd_item is binit.

(** ** Literals under the current domains *)

(** Formula::sat, Formula.cc:506-515. *)
Definition bsat (s : bst) (l : blit) : outcome satres :=
  do* bvar s (fst l) in
  let d := bcur s (fst l) in
  Ok (if Z.ldiff d (snd l) =? 0 then SatTrue
      else if Z.land (snd l) d =? 0 then SatFalse else SatUn).

(** verifyModel, Formula.cc:238-256. *)
Fixpoint bverify_clause (s : bst) (c : bclause) : outcome bool :=
  match c with
  | [] => Ok false
  | l :: c' => do* bvar s (fst l) in
      if Z.ldiff (bcur s (fst l)) (snd l) =? 0 then Ok true else bverify_clause s c'
  end.
Fixpoint bverify_clauses (s : bst) (cs : list bclause) : outcome bool :=
  match cs with
  | [] => Ok true
  | c :: cs' => let* b := bverify_clause s c in if b then bverify_clauses s cs' else Ok false
  end.
Definition bverify (s : bst) : outcome bool := bverify_clauses s (bcl s).

(** ** Choosing a literal *)

(** bitset::count *)
Definition bcount (m : Z) : nat := length (filter (Z.testbit m) (zrange 0 max_domain)).

(** chooseLiteralVSIDS, Formula.cc:260-290; accumulator: max, tvar, tval. *)
Definition bscore_step (s : bst) (v : Z) (best : spec_float * Z * Z) (j : Z) : outcome (spec_float * Z * Z) :=
  if max_domain <=? j then Undef BadBit
  else if Z.testbit (bcur s v) j && SFltb (fst (fst best)) (bsc s v j)
  then Ok (bsc s v j, v, j) else Ok best.
Definition bscore_var (s : bst) (best : spec_float * Z * Z) (v : Z) : outcome (spec_float * Z * Z) :=
  if Nat.ltb 1 (bcount (bcur s v)) then foldM (bscore_step s v) (zrange 0 (bdom s v)) best else Ok best.
Definition bchoose_vsids (s : bst) : outcome (bst * blit) :=
  let* best := foldM (bscore_var s) (zrange 0 (bnv s + 1)) (f64_mone, -1, -1) in
  Ok (set_buc s None, (snd (fst best), if snd best =? -1 then 0 else Z.shiftl 1 (snd best))).

(** lazyWatchedChooseLiteral, Formula.cc:549-561. *)
Fixpoint bchoose_lazy (s : bst) (ns : list nat) : outcome blit :=
  match ns with
  | [] => Ok bnolit
  | n :: ns' => let* x := bsat s (bw0 s n) in
      match x with SatUn => Ok (bw0 s n) | _ => bchoose_lazy s ns' end
  end.

(** The options -vsids, and the switch [blen] that corresponds to [lenient]. *)
Record bcfg := mkBcfg { bvsids : bool; blen : bool }.

(** Formula.cc:696-697 *)
Definition bchoose (c : bcfg) (s : bst) : outcome (bst * blit) :=
  if bvsids c then bchoose_vsids s
  else let* l := bchoose_lazy s (seq 0 (length (bcl s))) in Ok (s, l).

(** ** Reducing the theory *)

(** Deletes the record of clause [n] from a list (Variable::removeRecord, Variable.cc:79-94). *)
Fixpoint bremove (n : nat) (ns : list nat) : list nat :=
  match ns with [] => [] | m :: ns' => if Nat.eqb m n then ns' else m :: bremove n ns' end.

(** The loop of SwapPointer, Formula.cc:577-590: the literal that is watched instead. *)
Fixpoint bfind (s : bst) (w : blit) (c : bclause) : outcome (option blit) :=
  match c with
  | [] => Ok None
  | l :: c' => let* x := bsat s l in
      match x with
      | SatFalse => bfind s w c'
      | _ => if fst l =? fst w then bfind s w c' else Ok (Some l)
      end
  end.

(** SwapPointer, Formula.cc:563-600; [v] is the variable on whose list the record is.  A record that
    is on another list than VARLIST[watched1.VAR]'s would corrupt the lists ([BadList]). *)
Definition bswap (v : Z) (n : nat) (s : bst) : outcome bst :=
  let* c := bget s n in
  let a := bw0 s n in
  let b := bw1 s n in
  let* x := bsat s b in
  match x with
  | SatUn =>
      let* o := bfind s b c in
      match o with
      | Some l =>
          if fst a =? v then
            let s := set_brec s (upd1 (brec s) v (bremove n (brec s v))) in
            let* s := badd_record s (fst l) n in
            Ok (set_bw0 s (updn (bw0 s) n l))
          else Undef BadList
      | None => Ok (set_bulist s (n :: bulist s))
      end
  | _ => Ok (set_bcc (set_bconf s true) n)
  end.

(** The exchange of the two watched literals, Formula.cc:392-394 and 397-399. *)
Definition bflip (n : nat) (s : bst) : bst :=
  set_bw1 (set_bw0 s (updn (bw0 s) n (bw1 s n))) (updn (bw1 s) n (bw0 s n)).

(** The body of the loop of watchedUpdateVar, Formula.cc:388-405. *)
Definition bvisit (v : Z) (n : nat) (s : bst) : outcome bst :=
  do* bget s n in
  let* x := bsat s (bw0 s n) in
  match x with
  | SatTrue => Ok s
  | _ =>
      let* y := bsat s (bw1 s n) in
      match y with
      | SatTrue => Ok (bflip n s)
      | _ =>
          let s := if fst (bw1 s n) =? v then bflip n s else s in
          let* z := bsat s (bw0 s n) in
          match z with SatFalse => bswap v n s | _ => Ok s end
      end
  end.

(** watchedUpdateVar, Formula.cc:376-408: the records of [v] as they are at the start.  The list of
    [v] changes in the loop only by deletions of the current record. *)
Fixpoint bupdate (v : Z) (ns : list nat) (s : bst) : outcome bst :=
  match ns with
  | [] => Ok s
  | n :: ns' => if bconf s then Ok s else let* s := bvisit v n s in bupdate v ns' s
  end.

(** watchedReduceTheory, Formula.cc:602-623. *)
Definition breduce (s : bst) (l : blit) : outcome bst :=
  do* bvar s (fst l) in
  let v := fst l in
  let change := Z.ldiff (bcur s v) (snd l) in
  if change =? 0 then Ok s
  else
    let i := baix s + 1 in
    let s := set_baix s i in
    let s := set_bnodes s (upd1 (bnodes s) v (mkNode i (blevel s) (buc s) change :: bnodes s v)) in
    let s := set_bcur s (upd1 (bcur s) v (Z.land (bcur s v) (snd l))) in
    bupdate v (brec s v) s.

(** WatchedUnitPropagation, Formula.cc:517-547. *)
Fixpoint bprop (fuel : nat) (s : bst) : outcome bst :=
  match fuel with
  | O => OutOfFuel
  | S f =>
      if bconf s then Ok (set_bulist s [])
      else match bulist s with
      | [] => Ok s
      | n :: rest =>
          let s := set_bulist (set_buc s (Some n)) rest in
          let* c := bget s n in
          let* x := bsat s (bw0 s n) in
          match x with
          | SatUn =>
              let* s := breduce s (bw0 s n) in
              bprop f (set_bunits s (bunits s + 1))
          | _ =>
              if Nat.ltb 1 (length c) then
                let* y := bsat s (bw1 s n) in
                match y with
                | SatUn =>
                    let* s := breduce s (bw1 s n) in
                    bprop f (set_bunits s (bunits s + 1))
                | _ => bprop f s
                end
              else bprop f s
          end
      end
  end.

(** ** Learning *)

(** Variable::getIGNode, Variable.cc:104-111. *)
Fixpoint bfind_node (ns : list node) (m : Z) : node :=
  match ns with
  | [] => mkNode (-1) (-1) None m
  | x :: ns' => if Z.land (nvals x) m =? 0 then bfind_node ns' m else x
  end.
Definition bnode_of (s : bst) (l : blit) : outcome node :=
  do* bvar s (fst l) in Ok (bfind_node (bnodes s (fst l)) (snd l)).

(** resolve, Formula.cc:292-324. *)
Definition bresolve_step (l : blit) (acc : bclause) (r : blit) : bclause :=
  if fst r =? fst l then
    let m := Z.land (snd l) (snd r) in
    if m =? 0 then acc else add_atom acc (fst l, m)
  else add_atom acc r.
Definition bresolve (c : bclause) (l : blit) (r : bclause) : bclause :=
  fold_left (bresolve_step l) r
    (fold_left add_atom (filter (fun x => negb (fst x =? fst l)) c) []).

(** potent, Formula.cc:328-342; [w] is WATCHED[1] of the clause. *)
Definition bpotent (s : bst) (c : bclause) (w : blit) : outcome bool :=
  if Nat.eqb (length c) 1 then Ok true
  else let* x := bnode_of s w in Ok (nlev x <? blevel s).

(** assignWatched, Formula.cc:476-502; accumulator: (w1, max), (w2, second max). *)
Definition bwatch_step (s : bst) (acc : (blit * Z) * (blit * Z)) (l : blit) : outcome ((blit * Z) * (blit * Z)) :=
  let* x := bnode_of s l in
  let (b1, b2) := acc in
  if snd b1 <? nidx x then Ok ((l, nidx x), b1)
  else if snd b2 <? nidx x then Ok (b1, (l, nidx x))
  else Ok acc.
Definition bassign_watched (s : bst) (c : bclause) : outcome (blit * blit) :=
  let* q := foldM (bwatch_step s) c ((bnolit, -1), (bnolit, -1)) in
  Ok (fst (fst q), fst (snd q)).

(** learnClause, Formula.cc:344-372.  Flowing off the end of a function with result type Clause* is
    undefined; compilers without optimisation return ([blen]; the result is not used). *)
Definition blearn (c : bcfg) (s : bst) (ls : bclause) (a b : blit) : outcome bst :=
  let n := length (bcl s) in
  let s := set_bcl s (bcl s ++ [ls]) in
  let s := set_bw0 s (updn (bw0 s) n a) in
  let s := set_bw1 s (updn (bw1 s) n b) in
  let* s := badd_record s (fst a) n in
  let* s := if Nat.ltb 1 (length ls) then badd_record s (fst b) n else Ok s in
  let* s := foldM bump_lit ls s in
  let s := set_bsc s (fun v j => f64_div (bsc s v j) f64_two) in
  if blen c then Ok s else Undef NoReturn.

(** analyzeConflict, Formula.cc:428-474; [a], [b] are WATCHED of the clause.  If the clause is already
    in CLAUSELIST ([fresh] is false), learning it would enter the same object a second time, which
    the model does not follow ([Aliased]). *)
Fixpoint banalyze (fuel : nat) (c : bcfg) (s : bst) (ls : bclause) (a b : blit) (fresh : bool)
  : outcome (bst * (bclause * blit)) :=
  match fuel with
  | O => OutOfFuel
  | S f =>
      let* p := bpotent s ls b in
      if p then
        if fresh then let* s := blearn c s ls a b in Ok (s, (ls, b)) else Undef Aliased
      else
        let* x := bnode_of s a in
        match nreason x with
        | None => Undef OobClause
        | Some n =>
            let* r := bget s n in
            let q := bresolve ls a r in
            let* w := bassign_watched s q in
            banalyze f c s q (fst w) (snd w) true
        end
  end.

(** watchedUndoTheory, Formula.cc:410-424.  The parameter is not used; the member LEVEL is. *)
Fixpoint bpop (lev : Z) (ns : list node) (cur aix : Z) : list node * Z * Z :=
  match ns with
  | [] => ([], cur, aix)
  | x :: ns' => if lev <? nlev x then bpop lev ns' (Z.lor cur (nvals x)) (aix - 1) else (ns, cur, aix)
  end.
Definition bundo_var (s : bst) (v : Z) : bst :=
  match bpop (blevel s) (bnodes s v) (bcur s v) (baix s) with
  | (ns, cur, aix) => set_baix (set_bcur (set_bnodes s (upd1 (bnodes s) v ns)) (upd1 (bcur s) v cur)) aix
  end.
Definition bundo (s : bst) : bst := fold_left bundo_var (zrange 1 (bnv s)) s.

(** ** The search *)

(** The treatment of a conflict above level 0, Formula.cc:651-687; [rc] is restartCount. *)
Definition bconflict (fuel : nat) (c : bcfg) (r rc : Z) (s : bst) : outcome (bst * Z) :=
  let* ls := bget s (bcc s) in
  let* q := banalyze fuel c s ls (bw0 s (bcc s)) (bw1 s (bcc s)) false in
  let (s, d) := q in
  let (ls, b) := d in
  let* lev := if Nat.ltb 1 (length ls) then let* x := bnode_of s b in Ok (nlev x) else Ok 0 in
  let s := set_blevel s lev in
  let s := set_bback s (bback s + 1) in
  let s := set_bconf s false in
  let s0 := bundo s in
  let n := pred (length (bcl s)) in
  if bback s =? rc then
    let s := set_brest s0 (brest s0 + 1) in
    let s := set_bulist s (if blevel s =? 0 then [n] else []) in
    Ok (set_blevel s 0, bback s + r)
  else Ok (set_bulist s0 [n], rc).

(** One iteration of WatchedLiterals, Formula.cc:634-708. *)
Definition biter (fuel : nat) (c : bcfg) (clk : nat -> bool) (r rc : Z) (s : bst)
  : outcome (verdict * bst + Z * bst) :=
  let late := clk (btick s) in
  let s := set_btick s (S (btick s)) in
  if late then Ok (inl (TIMEOUT, s))
  else if bconf s && (blevel s =? 0) then Ok (inl (UNSAT, s))
  else
    let* q := if bconf s then bconflict fuel c r rc s else Ok (s, rc) in
    let (s, rc) := q in
    let* s := match bulist s with [] => Ok s | _ => bprop fuel s end in
    if bconf s then Ok (inr (rc, s))
    else
      let* q := bchoose c s in
      let (s, l) := q in
      if fst l =? -1 then Ok (inl (SAT, s))
      else
        let s := set_bdec s (bdec s + 1) in
        let s := set_blevel s (blevel s + 1) in
        let s := set_buc s None in
        let* s := breduce s l in
        Ok (inr (rc, s)).

(** WatchedLiterals, Formula.cc:626-710; [rc] is restartCount, initially [r]. *)
Fixpoint bloop (fuel : nat) (c : bcfg) (clk : nat -> bool) (r rc : Z) (s : bst) : outcome (verdict * bst) :=
  match fuel with
  | O => OutOfFuel
  | S f => let* q := biter fuel c clk r rc s in
      match q with
      | inl x => Ok x
      | inr (rc, s) => bloop f c clk r rc s
      end
  end.

(** What SolveFinite prints (bitvec/SolveFinite.cc:45-72, PrintInfo and PrintModel, Formula.cc:212-235):
    for SAT the current domain of each variable, with the dummy variable 0 first. *)
Record breport := mkBreport {
  br_verdict : verdict;
  br_decisions : Z; br_units : Z; br_backtracks : Z; br_variables : Z; br_clauses : Z; br_restarts : Z;
  br_model : list (Z * Z);
  br_verified : option bool
}.

Definition bprint (s : bst) : list (Z * Z) := map (fun i => (i, bcur s i)) (zrange 0 (bnv s + 1)).

Definition bsolve_state (fuel : nat) (c : bcfg) (clk : nat -> bool) (r : Z) (s : bst)
  : outcome (breport * bst) :=
  let* q := bloop fuel c clk r r s in
  let (v, s) := q in
  let mk md ver := mkBreport v (bdec s) (bunits s) (bback s) (bnv s) (Z.of_nat (length (bcl s))) (brest s) md ver in
  match v with
  | SAT => let* b := bverify s in Ok (mk (bprint s) (Some b), s)
  | _ => Ok (mk [] None, s)
  end.

Definition bsolve (fuel : nat) (c : bcfg) (clk : nat -> bool) (r : Z) (p : problem) : outcome (breport * bst) :=
  let* s := bbuild (items_of p) in bsolve_state fuel c clk r s.
