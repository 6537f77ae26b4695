(** * Decision heuristics

    Models src/Formula.cc: chooseLiteral, chooseLiteralVSIDS, chooseLiteralVSIDS_allPos,
    lazyChooseLiteral, lazyWatchedChooseLiteral.  The first three set UNITCLAUSE to -1.
    [nolit] (VAR = -1) means that nothing was found. *)

From Coq Require Import Floats.SpecFloat.
From Verif Require Import Spec Outcome State.

(** IEEE binary64 arithmetic of the standard library's executable specification. *)
Definition f64_add : spec_float -> spec_float -> spec_float := SFadd 53 1024.
Definition f64_div : spec_float -> spec_float -> spec_float := SFdiv 53 1024.
Definition f64_zero : spec_float := S754_zero false.
Definition f64_one : spec_float := S754_finite false 4503599627370496 (-52).
Definition f64_two : spec_float := S754_finite false 4503599627370496 (-51).
Definition f64_mone : spec_float := S754_finite true 4503599627370496 (-52).

(** Candidate test shared by the three loops: VARLIST[i]->VAL == -1 and
    ATOMASSIGN[j] == 0. *)
Definition candidate (t : trail) (a : Z * Z) : bool :=
  (VAL t (fst a) =? -1) && match ASG t (fst a) (snd a) with Un => true | _ => false end.

(** chooseLiteral, Formula.cc:322-349.  INT_MIN as start value is modelled by [None]
    (every difference of counts is taken to be larger). *)
Definition bk_step (s : state) (best : option (Z * lit)) (a : Z * Z) : option (Z * lit) :=
  if candidate (tr s) a then
    let tmax := cnt s (mkLit (fst a) (snd a) true) - cnt s (mkLit (fst a) (snd a) false) in
    match best with
    | None => Some (tmax, mkLit (fst a) (snd a) true)
    | Some (m, _) => if m <? tmax then Some (tmax, mkLit (fst a) (snd a) true) else best
    end
  else best.
Definition choose_bk (s : state) : lit :=
  match fold_left (bk_step s) (atoms_from (tr s) 0) None with
  | Some (_, l) => l
  | None => mkLit (-1) (-1) true
  end.

(** chooseLiteralVSIDS, Formula.cc:351-391. *)
Definition vsids_try (s : state) (best : spec_float * lit) (l : lit) : spec_float * lit :=
  if SFltb (fst best) (vs s l) then (vs s l, l) else best.
Definition vsids_step (s : state) (best : spec_float * lit) (a : Z * Z) : spec_float * lit :=
  if candidate (tr s) a then
    vsids_try s (vsids_try s best (mkLit (fst a) (snd a) true)) (mkLit (fst a) (snd a) false)
  else best.
Definition choose_vsids (s : state) : lit :=
  snd (fold_left (vsids_step s) (atoms_from (tr s) 0) (f64_mone, mkLit (-1) (-1) false)).

(** chooseLiteralVSIDS_allPos, Formula.cc:393-422. *)
Definition vsids_pos_step (s : state) (best : spec_float * lit) (a : Z * Z) : spec_float * lit :=
  if candidate (tr s) a then vsids_try s best (mkLit (fst a) (snd a) true) else best.
Definition choose_vsids_pos (s : state) : lit :=
  snd (fold_left (vsids_pos_step s) (atoms_from (tr s) 0) (f64_mone, mkLit (-1) (-1) true)).

(** lazyChooseLiteral, Formula.cc:1207-1222: first unassigned literal of the first clause
    that has one and is not satisfied. *)
Fixpoint lazy_lits (t : trail) (ls : clause) : outcome (option lit) :=
  match ls with
  | [] => Ok None
  | l :: ls' =>
      let* r := sat t l in
      match r with
      | SatUn => Ok (Some l)
      | _ => lazy_lits t ls'
      end
  end.
Fixpoint lazy_clauses (s : state) (n : nat) (cs : list clause) : outcome lit :=
  match cs with
  | [] => Ok nolit
  | c :: cs' =>
      if clev s n =? -1 then
        let* o := lazy_lits (tr s) c in
        match o with
        | Some l => Ok l
        | None => lazy_clauses s (S n) cs'
        end
      else lazy_clauses s (S n) cs'
  end.
Definition choose_lazy (s : state) : outcome lit := lazy_clauses s 0 (cl s).

(** lazyWatchedChooseLiteral, Formula.cc:1191-1203: first unassigned first watched literal. *)
Fixpoint lazy_watched (s : state) (n : nat) (cs : list clause) : outcome lit :=
  match cs with
  | [] => Ok nolit
  | _ :: cs' =>
      let* r := sat (tr s) (w0 s n) in
      match r with
      | SatUn => Ok (w0 s n)
      | _ => lazy_watched s (S n) cs'
      end
  end.
Definition choose_lazy_watched (s : state) : outcome lit := lazy_watched s 0 (cl s).

(** The switch statements of NonChronoBacktrack (Formula.cc:1509-1515), ChronoBacktrack
    (1570-1575) and WatchedLiterals (1423-1428).  A heuristic without a case leaves [atom] at
    its default Literal(). *)
Definition choose_nc (c : cfg) (s : state) : outcome (state * lit) :=
  match heur c with
  | VSIDS => Ok (set_uclause s RDec, choose_vsids s)
  | VSIDS_pos => Ok (set_uclause s RDec, choose_vsids_pos s)
  | BK => Ok (set_uclause s RDec, choose_bk s)
  | Lazy => let* l := choose_lazy s in Ok (s, l)
  end.
Definition choose_ch (c : cfg) (s : state) : outcome (state * lit) :=
  match heur c with
  | BK => Ok (set_uclause s RDec, choose_bk s)
  | Lazy => let* l := choose_lazy s in Ok (s, l)
  | _ => Ok (s, nolit)
  end.
Definition choose_wl (c : cfg) (s : state) : outcome (state * lit) :=
  match heur c with
  | VSIDS => Ok (set_uclause s RDec, choose_vsids s)
  | VSIDS_pos => Ok (set_uclause s RDec, choose_vsids_pos s)
  | Lazy => let* l := choose_lazy_watched s in Ok (s, l)
  | BK => Ok (s, nolit)
  end.
