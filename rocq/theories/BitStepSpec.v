(** * Vocabulary of the theorems about single steps of the second solver *)

From Coq Require Import Floats.SpecFloat.
From Verif Require Import Spec Outcome State ModelSearch ModelBuild ModelBit BitSpec ScoreSpec.

(** ** States of a run *)

(** The states at the start of an iteration of the search; [rc] is the next number of conflicts
    at which the search is restarted. *)
Inductive bit_reached (cf : bcfg) (clk : nat -> bool) (r : Z) (p : problem) : Z -> bst -> Prop :=
| bit_first s : bbuild (items_of p) = Ok s -> bit_reached cf clk r p r s
| bit_next fuel rc s rc' s' : bit_reached cf clk r p rc s -> biter fuel cf clk r rc s = Ok (inr (rc', s')) ->
    bit_reached cf clk r p rc' s'.

(** A conflict above level 0 is about to be treated. *)
Definition bit_conflict_at (cf : bcfg) (clk : nat -> bool) (r : Z) (p : problem) (rc : Z) (s : bst) : Prop :=
  exists s0, bit_reached cf clk r p rc s0 /\ clk (btick s0) = false /\ bconf s0 = true /\ blevel s0 <> 0 /\
    s = set_btick s0 (S (btick s0)).

(** In state [s] the literal [l] is chosen (none if its variable is -1). *)
Definition bit_decision_at (cf : bcfg) (clk : nat -> bool) (r : Z) (p : problem) (s : bst) (l : blit) : Prop :=
  exists fuel rc0 s0 rc s1 s2, bit_reached cf clk r p rc0 s0 /\ clk (btick s0) = false /\
    (let s0 := set_btick s0 (S (btick s0)) in
     (bconf s0 = true -> blevel s0 <> 0) /\
     (if bconf s0 then bconflict fuel cf r rc0 s0 else Ok (s0, rc0)) = Ok (s1, rc)) /\
    match bulist s1 with [] => Ok s1 | _ => bprop fuel s1 end = Ok s /\ bconf s = false /\
    bchoose cf s = Ok (s2, l).

(** ** Literals under the current domains *)

(** Every value that is left belongs to the literal; none does. *)
Definition set_true (s : bst) (l : blit) : Prop := forall d, has_value (bcur s (fst l)) d -> has_value (snd l) d.
Definition set_false (s : bst) (l : blit) : Prop := forall d, has_value (snd l) d -> ~ has_value (bcur s (fst l)) d.
Definition set_open (s : bst) (l : blit) : Prop := ~ set_true s l /\ ~ set_false s l.

(** ** Scores *)

(** The clause allows [v=d]. *)
Definition allows (c : clause) (v d : Z) : bool :=
  existsb (fun l => (lvar l =? v) && (if leq l then lval l =? d else negb (lval l =? d))) c.
Definition set_allows (c : bclause) (v d : Z) : bool := existsb (fun l => (fst l =? v) && Z.testbit (snd l) d) c.

(** One for each clause of the input that allows the value; each learned clause that allows it
    adds one, and then all scores are halved. *)
Definition set_score (input : list clause) (learned : list bclause) (v d : Z) : spec_float :=
  fold_left (fun x c => half (if set_allows c v d then plus_one x else x)) learned
    (Nat.iter (length (filter (fun c => allows c v d) input)) plus_one (S754_zero false)).

(** The sets of a clause of the input: one literal for each of its variables, in the order of
    their first occurrences, with the values of the domain that the clause allows. *)
Definition set_form (p : problem) (c : clause) (b : bclause) : Prop :=
  NoDup (map fst b) /\ (forall v, In v (map fst b) <-> In v (map lvar c)) /\
  forall v m d, In (v, m) b -> (has_value m d <-> 0 <= d < domsize p v /\ allows c v d = true).

(** The scores of a state: its clauses are those of the input and the learned ones. *)
Definition set_scores (p : problem) (s : bst) : Prop :=
  exists input learned, bcl s = input ++ learned /\ Forall2 (set_form p) (clauses p) input /\
    forall v d, 1 <= v <= nvars p -> 0 <= d < domsize p v -> bsc s v d = set_score (clauses p) learned v d.

(** ** Choices *)

(** A value of a variable that has more than one left. *)
Definition open_value (p : problem) (s : bst) (v d : Z) : Prop :=
  1 <= v <= nvars p /\ has_value (bcur s v) d /\ exists e, e <> d /\ has_value (bcur s v) e.

(** With scores: one value of maximal score is chosen, the first one in the order of variables and
    values; none if each variable has at most one left. *)
Definition score_choice (p : problem) (s : bst) (l : blit) : Prop :=
  (fst l = -1 /\ forall v d, ~ open_value p s v d) \/
  exists d, open_value p s (fst l) d /\ (forall e, has_value (snd l) e <-> e = d) /\
    forall v e, open_value p s v e ->
      SFltb (bsc s (fst l) d) (bsc s v e) = false /\
      (v < fst l \/ v = fst l /\ e < d -> SFltb (bsc s v e) (bsc s (fst l) d) = true).

(** Without scores: the first of the first watched literals that is open; the clauses before its
    clause have a true literal. *)
Definition watch_choice (s : bst) (l : blit) : Prop :=
  (fst l = -1 /\ (forall c, In c (bcl s) -> exists x, In x c /\ set_true s x) /\
   forall n, (n < length (bcl s))%nat -> ~ set_open s (bw0 s n)) \/
  exists before c after,
    bcl s = before ++ c :: after /\ (forall d, In d before -> exists x, In x d /\ set_true s x) /\
    (forall n, (n < length before)%nat -> ~ set_open s (bw0 s n)) /\
    l = bw0 s (length before) /\ In l c /\ set_open s l.

(** ** Conflicts *)

(** The change of the domain that made a literal false: the last one that took a value of it. *)
Definition falsified_by (s : bst) (l : blit) (x : node) : Prop :=
  exists later before, bnodes s (fst l) = later ++ x :: before /\
    (exists d, has_value (nvals x) d /\ has_value (snd l) d) /\
    forall y d, In y later -> has_value (nvals y) d -> ~ has_value (snd l) d.
Definition false_at (s : bst) (l : blit) (k : Z) : Prop := exists x, falsified_by s l x /\ nlev x = k.

(** Exactly one literal became false at the current level. *)
Definition set_asserting (s : bst) (c : bclause) : Prop :=
  exists u, In u c /\ false_at s u (blevel s) /\ forall l, In l c -> l <> u -> exists k, k < blevel s /\ false_at s l k.

(** [l] became false last. *)
Definition last_false (s : bst) (c : bclause) (l : blit) : Prop :=
  In l c /\ exists x, falsified_by s l x /\
    forall m, In m c -> m <> l -> exists y, falsified_by s m y /\ nidx y < nidx x.

(** The clause from which the change was propagated that made [l] false. *)
Definition set_because (s : bst) (l : blit) (r : bclause) : Prop :=
  exists x n, falsified_by s l x /\ nreason x = Some n /\ nth_error (bcl s) n = Some r.

(** [d] is the resolvent of [c] and [r] on the literal [l] of [c]: for the other variables the
    union of the sets; the values common to [l] and [r] remain. *)
Definition set_resolvent (c : bclause) (l : blit) (r d : bclause) : Prop :=
  NoDup (map fst d) /\
  (exists keep, map fst d = filter (fun v => negb (v =? fst l)) (map fst c) ++ filter keep (map fst r) /\
     forall v, In v (map fst r) -> (keep v = true <->
       (v <> fst l /\ ~ In v (map fst c) \/ v = fst l /\ exists e, set_allows r v e && Z.testbit (snd l) e = true))) /\
  forall v m e, In (v, m) d -> (has_value m e <->
    if v =? fst l then set_allows r v e = true /\ has_value (snd l) e
    else set_allows c v e = true \/ set_allows r v e = true).

(** Resolving on the literal that became false last until one of the current level is left. *)
Inductive set_learns (s : bst) : bclause -> bclause -> Prop :=
| set_learns_done c : set_asserting s c -> set_learns s c c
| set_learns_step c l r d e : ~ set_asserting s c -> last_false s c l -> set_because s l r ->
    set_resolvent c l r d -> set_learns s d e -> set_learns s c e.

(** [s'] is [s] with exactly the changes above level [k] taken back. *)
Definition set_restored (p : problem) (s : bst) (k : Z) (s' : bst) : Prop :=
  forall v, 1 <= v <= nvars p ->
    bnodes s' v = filter (fun x => nlev x <=? k) (bnodes s v) /\
    forall d, has_value (bcur s' v) d <->
      has_value (bcur s v) d \/ exists x, In x (bnodes s v) /\ k < nlev x /\ has_value (nvals x) d.

(** [s'] follows the conflict state [s]: the clause [c] is learned and waits to be propagated at the
    highest level of its other literals, where it has one literal that is not false, which is open. *)
Definition set_drives (p : problem) (s s' : bst) (c : bclause) : Prop :=
  bcl s' = bcl s ++ [c] /\ blevel s' < blevel s /\ bconf s' = false /\ bulist s' = [length (bcl s)] /\
  set_restored p s (blevel s') s' /\
  exists u, In u c /\ set_open s' u /\ (forall l, In l c -> l <> u -> set_false s' l) /\
    (blevel s' = 0 \/ exists l, In l c /\ l <> u /\ false_at s l (blevel s')).
