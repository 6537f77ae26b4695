(** * The three search procedures

    Models src/Formula.cc: ChronoBacktrack, NonChronoBacktrack, WatchedLiterals.
    The clock is an oracle: [clk k = true] means that the k-th time check of the run found
    TIME_E - TIME_S > TIMELIMIT.  One fuel argument bounds the number of iterations of each
    loop and the recursion depth. *)

From Verif Require Import Spec Outcome State ModelCounter ModelHeur ModelLearn ModelWatch.

(** Result codes 0, 1, 2 of the search functions. *)
Inductive verdict := SAT | TIMEOUT | UNSAT.

(** A time check (Formula.cc:1366-1368, 1459-1461, 1544-1546, 1553-1555). *)
Definition check_time (clk : nat -> bool) (s : state) : bool * state :=
  (clk (tick s), set_tick s (S (tick s))).

(** [UNITLIST.clear(); UNITLIST.push_back(CLAUSELIST.size()-1)] *)
Definition only_last (s : state) : state := set_ulist s [Nat.pred (length (cl s))].

(** The conflict branch of NonChronoBacktrack above level 0, Formula.cc:1473-1500.
    [rc] is restartCount; returns the new state and restartCount. *)
Definition nc_conflict (fuel : nat) (c : cfg) (r rc : Z) (s : state) : outcome (state * Z) :=
  let* ls := getcl s (confcl s) in
  let* res := analyze fuel c s ls (w0 s (confcl s)) (w1 s (confcl s)) false in
  let (s, learned) := res in
  let* lv := backtrack_level s (fst learned) in
  let s := set_level s lv in
  let s := set_backtracks s (backtracks s + 1) in
  let s := set_conflict s false in
  if backtracks s =? rc then
    let* s := undo_theory c s 0 in
    let rc := backtracks s + r in
    let s := set_restarts s (restarts s + 1) in
    let s := if level s =? 0 then only_last s else set_ulist s [] in
    Ok (set_level s 0, rc)
  else
    let* s := undo_theory c s (level s) in
    Ok (only_last s, rc).

(** Decision: Formula.cc:1517-1525. *)
Definition nc_decide (c : cfg) (s : state) (l : lit) : outcome state :=
  let s := set_decisions s (decisions s + 1) in
  let s := set_level s (level s + 1) in
  let s := set_uclause s RDec in
  reduce_theory c s l.

(** NonChronoBacktrack, Formula.cc:1447-1529; [r] is the parameter restarts. *)
Fixpoint nc_loop (fuel : nat) (c : cfg) (clk : nat -> bool) (r rc : Z) (s : state)
  : outcome (verdict * state) :=
  match fuel with
  | O => OutOfFuel
  | S fuel' =>
      let (late, s) := check_time clk s in
      if late then Ok (TIMEOUT, s)
      else if conflict s && (level s =? 0) then Ok (UNSAT, s)
      else
        let* p := if conflict s then nc_conflict fuel c r rc s else Ok (s, rc) in
        let (s, rc) := p in
        let* s := match ulist s with
                  | [] => Ok s
                  | _ => unit_propagation fuel c s
                  end in
        if conflict s then nc_loop fuel' c clk r rc s
        else
          let* q := choose_nc c s in
          let (s, l) := q in
          if lvar l =? -1 then Ok (SAT, s)
          else
            let* s := nc_decide c s l in
            nc_loop fuel' c clk r rc s
  end.

Definition nc_search (fuel : nat) (c : cfg) (clk : nat -> bool) (r : Z) (s : state) :=
  nc_loop fuel c clk r r s.

(** The conflict branch of WatchedLiterals above level 0, Formula.cc:1380-1415. *)
Definition wl_conflict (fuel : nat) (c : cfg) (r rc : Z) (s : state) : outcome (state * Z) :=
  let* ls := getcl s (confcl s) in
  let* res := analyze fuel c s ls (w0 s (confcl s)) (w1 s (confcl s)) false in
  let (s, learned) := res in
  let* lv := if Nat.ltb 1 (length (fst learned)) then
               let b := snd (snd learned) in
               do* chk (tr s) b in Ok (llev (tr s) b)
             else Ok 0 in
  let s := set_level s lv in
  let s := set_backtracks s (backtracks s + 1) in
  let s := set_conflict s false in
  if backtracks s =? rc then
    let* s := wundo_theory s 0 in
    let rc := backtracks s + r in
    let s := set_restarts s (restarts s + 1) in
    let s := if level s =? 0 then only_last s else set_ulist s [] in
    Ok (set_level s 0, rc)
  else
    let* s := wundo_theory s (level s) in
    Ok (only_last s, rc).

(** Decision: Formula.cc:1429-1436. *)
Definition wl_decide (c : cfg) (s : state) (l : lit) : outcome state :=
  let s := set_decisions s (decisions s + 1) in
  let s := set_level s (level s + 1) in
  let s := set_uclause s RDec in
  wreduce_theory c s l.

(** WatchedLiterals, Formula.cc:1354-1444. *)
Fixpoint wl_loop (fuel : nat) (c : cfg) (clk : nat -> bool) (r rc : Z) (s : state)
  : outcome (verdict * state) :=
  match fuel with
  | O => OutOfFuel
  | S fuel' =>
      let (late, s) := check_time clk s in
      if late then Ok (TIMEOUT, s)
      else if conflict s && (level s =? 0) then Ok (UNSAT, s)
      else
        let* p := if conflict s then wl_conflict fuel c r rc s else Ok (s, rc) in
        let (s, rc) := p in
        let* s := match ulist s with
                  | [] => Ok s
                  | _ => wunit_propagation fuel c s
                  end in
        if conflict s then wl_loop fuel' c clk r rc s
        else
          let* q := choose_wl c s in
          let (s, l) := q in
          if lvar l =? -1 then Ok (SAT, s)
          else
            let* s := wl_decide c s l in
            wl_loop fuel' c clk r rc s
  end.

Definition wl_search (fuel : nat) (c : cfg) (clk : nat -> bool) (r : Z) (s : state) :=
  wl_loop fuel c clk r r s.

(** ChronoBacktrack, Formula.cc:1533-1602. *)
Fixpoint chrono (fuel : nat) (c : cfg) (clk : nat -> bool) (s : state) (lev : Z)
  : outcome (verdict * state) :=
  match fuel with
  | O => OutOfFuel
  | S fuel' =>
      let s := set_level s lev in
      let (late, s) := check_time clk s in
      if late then Ok (TIMEOUT, s)
      else
        let* s := match ulist s with
                  | [] => Ok s
                  | _ => unit_propagation fuel c s
                  end in
        let (late, s) := check_time clk s in
        if late then Ok (TIMEOUT, s)
        else if conflict s then
          let s := set_backtracks s (backtracks s + 1) in
          let s := set_conflict s false in
          let* s := undo_theory c s (level s - 1) in
          let s := set_ulist s [] in
          Ok (UNSAT, set_level s (level s - 1))
        else
          let* q := choose_ch c s in
          let (s, l) := q in
          if lvar l =? -1 then Ok (SAT, s)
          else
            let s := set_decisions s (decisions s + 1) in
            let s := set_level s (level s + 1) in
            let* s := reduce_theory c s l in
            let* res := chrono fuel' c clk s (level s) in
            let (v, s) := res in
            match v with
            | SAT => Ok (SAT, s)
            | TIMEOUT => Ok (TIMEOUT, s)
            | UNSAT =>
                if 0 <=? level s then
                  let* s := reduce_theory c s (neg l) in
                  chrono fuel' c clk s (level s)
                else Ok (UNSAT, s)
            end
  end.
