(** * Executions of the search procedures, step by step

    The search functions of ModelSearch.v only show their final result.  This file names the
    intermediate states: the states at the head of the loop of NonChronoBacktrack and
    WatchedLiterals (one iteration is [nc_iter] / [wl_iter]; the lemmas [nc_loop_iter] and
    [wl_loop_iter] say that the loop is the iteration of these), the states in which
    ChronoBacktrack is called, and the conflicts and decisions met on the way. *)

From Verif Require Import Spec Outcome State ModelCounter ModelHeur ModelLearn ModelWatch
  ModelSearch ModelBuild Nc Wl.

(** ** NonChronoBacktrack *)

(** Loop head: the value of restartCount and the state. *)
Inductive nc_reached (c : cfg) (clk : nat -> bool) (r : Z) (p : problem) : Z -> state -> Prop :=
| nr_start s : build c (items_of p) = Ok s -> nc_reached c clk r p r s
| nr_step fuel rc s rc' s' : nc_reached c clk r p rc s ->
    nc_iter fuel c clk r rc s = Ok (inr (rc', s')) -> nc_reached c clk r p rc' s'.

(** A conflict above level 0: handled in state [s], leaving the state [s']. *)
Definition nc_conflict_at c clk r p (rc : Z) (s : state) (rc' : Z) (s' : state) : Prop :=
  exists s0 fuel, nc_reached c clk r p rc s0 /\ check_time clk s0 = (false, s) /\
    conflict s = true /\ level s <> 0 /\ nc_conflict fuel c r rc s = Ok (s', rc').

(** A decision (or the end of the search, when nothing is left to decide): in state [s] the
    heuristic returns [l]. *)
Definition nc_decision_at c clk r p (s : state) (l : lit) : Prop :=
  exists s0 s1 fuel rc rc' s2, nc_reached c clk r p rc s0 /\ check_time clk s0 = (false, s1) /\
    conflict s1 && (level s1 =? 0) = false /\ nc_front fuel c r rc s1 = Ok (s, rc') /\
    conflict s = false /\ choose_nc c s = Ok (s2, l).

(** ** WatchedLiterals *)

Inductive wl_reached (c : cfg) (clk : nat -> bool) (r : Z) (p : problem) : Z -> state -> Prop :=
| wr_start s : build c (items_of p) = Ok s -> wl_reached c clk r p r s
| wr_step fuel rc s rc' s' : wl_reached c clk r p rc s ->
    wl_iter fuel c clk r rc s = Ok (inr (rc', s')) -> wl_reached c clk r p rc' s'.

Definition wl_conflict_at c clk r p (rc : Z) (s : state) (rc' : Z) (s' : state) : Prop :=
  exists s0 fuel, wl_reached c clk r p rc s0 /\ check_time clk s0 = (false, s) /\
    conflict s = true /\ level s <> 0 /\ wl_conflict fuel c r rc s = Ok (s', rc').

Definition wl_decision_at c clk r p (s : state) (l : lit) : Prop :=
  exists s0 s1 fuel rc rc' s2, wl_reached c clk r p rc s0 /\ check_time clk s0 = (false, s1) /\
    conflict s1 && (level s1 =? 0) = false /\ wl_front fuel c r rc s1 = Ok (s, rc') /\
    conflict s = false /\ choose_wl c s = Ok (s2, l).

(** ** ChronoBacktrack *)

(** From the entry of ChronoBacktrack to the second time check, Formula.cc:1540-1555. *)
Definition ch_front (fuel : nat) (c : cfg) (clk : nat -> bool) (s : state) (lev : Z)
  : outcome (bool * state) :=
  let s := set_level s lev in
  let (late, s) := check_time clk s in
  if late then Ok (true, s)
  else
    let* s := match ulist s with
              | [] => Ok s
              | _ => unit_propagation fuel c s
              end in
    Ok (check_time clk s).

(** The conflict branch, Formula.cc:1557-1566. *)
Definition ch_conflict (c : cfg) (s : state) : outcome state :=
  let s := set_backtracks s (backtracks s + 1) in
  let s := set_conflict s false in
  let* s := undo_theory c s (level s - 1) in
  let s := set_ulist s [] in
  Ok (set_level s (level s - 1)).

(** The first branch of a decision, Formula.cc:1578-1583. *)
Definition ch_left (c : cfg) (s : state) (l : lit) : outcome state :=
  let s := set_decisions s (decisions s + 1) in
  let s := set_level s (level s + 1) in
  reduce_theory c s l.

Lemma chrono_unfold f c clk s lev :
  chrono (S f) c clk s lev =
  let* x := ch_front (S f) c clk s lev in
  let (late, s) := x in
  if late then Ok (TIMEOUT, s)
  else if conflict s then let* s := ch_conflict c s in Ok (UNSAT, s)
  else
    let* q := choose_ch c s in
    let (s, l) := q in
    if lvar l =? -1 then Ok (SAT, s)
    else
      let* s := ch_left c s l in
      let* res := chrono f c clk s (level s) in
      let (v, s) := res in
      match v with
      | SAT => Ok (SAT, s)
      | TIMEOUT => Ok (TIMEOUT, s)
      | UNSAT =>
          if 0 <=? level s then
            let* s := reduce_theory c s (neg l) in
            chrono f c clk s (level s)
          else Ok (UNSAT, s)
      end.
Proof.
  cbn [chrono]. unfold ch_front.
  destruct (check_time clk (set_level s lev)) as ([|], s1); [reflexivity|].
  destruct (match ulist s1 with [] => Ok s1 | _ :: _ => unit_propagation (S f) c s1 end) as [s2|u|]; auto.
  cbn [bind]. destruct (check_time clk s2) as ([|], s3); [reflexivity|]. destruct (conflict s3).
  - unfold ch_conflict. cbv zeta. destruct (undo_theory c _ _); reflexivity.
  - destruct (choose_ch c s3) as [(s4, l)|u|]; auto.
Qed.

(** The states and levels with which ChronoBacktrack is called. *)
Inductive ch_called (c : cfg) (clk : nat -> bool) (p : problem) : state -> Z -> Prop :=
| cc_root s : build c (items_of p) = Ok s -> ch_called c clk p s 0
| cc_left fuel s lev s1 s2 l s3 : ch_called c clk p s lev ->
    ch_front fuel c clk s lev = Ok (false, s1) -> conflict s1 = false ->
    choose_ch c s1 = Ok (s2, l) -> lvar l <> -1 -> ch_left c s2 l = Ok s3 ->
    ch_called c clk p s3 (level s3)
| cc_right fuel fuel' s lev s1 s2 l s3 s4 s5 : ch_called c clk p s lev ->
    ch_front fuel c clk s lev = Ok (false, s1) -> conflict s1 = false ->
    choose_ch c s1 = Ok (s2, l) -> lvar l <> -1 -> ch_left c s2 l = Ok s3 ->
    chrono fuel' c clk s3 (level s3) = Ok (UNSAT, s4) -> 0 <= level s4 ->
    reduce_theory c s4 (neg l) = Ok s5 ->
    ch_called c clk p s5 (level s5).

Definition ch_conflict_at c clk p (s s' : state) : Prop :=
  exists fuel s0 lev, ch_called c clk p s0 lev /\ ch_front fuel c clk s0 lev = Ok (false, s) /\
    conflict s = true /\ ch_conflict c s = Ok s'.

Definition ch_decision_at c clk p (s : state) (l : lit) : Prop :=
  exists fuel s0 lev s1, ch_called c clk p s0 lev /\ ch_front fuel c clk s0 lev = Ok (false, s) /\
    conflict s = false /\ choose_ch c s = Ok (s1, l).
