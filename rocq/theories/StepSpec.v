(** * Vocabulary of the theorems about single steps of the search

    Definitions over the observable state, used in theorem statements only. *)

From Coq Require Import SpecFloat.
From Verif Require Import Spec Outcome State.

(** [v=d] is an atom of the problem. *)
Definition declared (p : problem) (v d : Z) : Prop :=
  1 <= v <= nvars p /\ 0 <= d < domsize p v.

(** Status of a literal under the current partial assignment. *)
Definition is_true (s : state) (l : lit) : Prop :=
  ASG (tr s) (lvar l) (lval l) = if leq l then Pos else Neg.
Definition is_false (s : state) (l : lit) : Prop :=
  ASG (tr s) (lvar l) (lval l) = if leq l then Neg else Pos.
Definition is_open (s : state) (l : lit) : Prop :=
  ASG (tr s) (lvar l) (lval l) = Un.

(** The level at which a literal was assigned. *)
Definition level_of (s : state) (l : lit) : Z := ALEV (tr s) (lvar l) (lval l).

(** The clauses of the input are all there, and every other clause is a well-formed consequence
    of the input. *)
Definition only_learnt (p : problem) (s : state) : Prop :=
  exists ls, cl s = clauses p ++ ls /\ forall C, In C ls ->
    consequence p C /\ NoDup C /\ C <> [] /\ forall l, In l C -> wf_lit p l.

(** [s'] is [s] with exactly the atoms assigned above level [k] forgotten. *)
Record restored (p : problem) (s : state) (k : Z) (s' : state) : Prop := mkRestored {
  re_kept : forall v d, declared p v d -> ALEV (tr s) v d <= k ->
    ASG (tr s') v d = ASG (tr s) v d /\ ALEV (tr s') v d = ALEV (tr s) v d /\
    CID (tr s') v d = CID (tr s) v d /\ AIDX (tr s') v d = AIDX (tr s) v d;
  re_gone : forall v d, declared p v d -> k < ALEV (tr s) v d ->
    ASG (tr s') v d = Un /\ ALEV (tr s') v d = -10 /\ CID (tr s') v d = RUndef;
  re_stack : exists above, DST (tr s) = DST (tr s') ++ above /\
    (forall f, In f (DST (tr s')) -> level_of s f <= k) /\ (forall f, In f above -> k < level_of s f);
  re_value : forall v, 1 <= v <= nvars p ->
    (forall d, 0 <= d < domsize p v -> ASG (tr s') v d = Pos -> VAL (tr s') v = d) /\
    (VAL (tr s') v <> -1 -> declared p v (VAL (tr s') v) /\ ASG (tr s') v (VAL (tr s') v) = Pos)
}.

(** [s'] follows the conflict state [s]: the new clause [C] is a false consequence of the input,
    not implied by containing an existing clause; it has one literal [u] of the conflict level.
    The search goes back to the highest level of the other literals, where [u] alone is open and
    the clause waits to be propagated; or, if this conflict is the [rc]-th, to level 0, where the
    clause waits only if its other literals are still false. *)
Definition drives (p : problem) (rc : Z) (s s' : state) (C : clause) : Prop :=
  cl s' = cl s ++ [C] /\ consequence p C /\ (forall l, In l C -> is_false s l) /\
  (forall D, In D (cl s) -> ~ incl D C) /\ level s' < level s /\ conflict s' = false /\
  exists u, In u C /\ level_of s u = level s /\ (forall l, In l C -> l <> u -> level_of s l < level s) /\
    let waits := is_open s' u /\ (forall l, In l C -> l <> u -> is_false s' l) /\ ulist s' = [length (cl s)] in
    if backtracks s + 1 =? rc
    then level s' = 0 /\ (waits \/ ulist s' = [] /\ exists y, In y C /\ 0 < level_of s y < level s)
    else waits /\ (level s' = 0 \/ exists y, In y C /\ level_of s y = level s').

(** The clause counters are exact: a clause is marked satisfied iff it has a true literal, and
    then with the lowest level at which one became true; otherwise its counter is the number of
    its unassigned literals. *)
Definition counted (s : state) : Prop :=
  forall n C, nth_error (cl s) n = Some C ->
    (clev s n <> -1 <-> exists l, In l C /\ is_true s l) /\
    (clev s n <> -1 -> (exists l, In l C /\ is_true s l /\ level_of s l = clev s n) /\
       forall l, In l C -> is_true s l -> clev s n <= level_of s l) /\
    (clev s n = -1 -> num s n = Z.of_nat (length (filter (lit_un (tr s)) C))).

(** The watch lists are exact, and a watched literal is false only if the other one is true or
    the clause waits to be propagated. *)
Definition watched (s : state) : Prop :=
  forall n C, nth_error (cl s) n = Some C ->
    In (w0 s n) C /\
    ((2 <= length C)%nat -> In (w1 s n) C /\ w1 s n <> w0 s n) /\
    (forall l, In n (wls s l) <-> l = w0 s n \/ (2 <= length C)%nat /\ l = w1 s n) /\
    ((2 <= length C)%nat -> ~ In n (ulist s) ->
      (is_false s (w0 s n) -> is_true s (w1 s n)) /\ (is_false s (w1 s n) -> is_true s (w0 s n))).

(** The clauses without a true literal, and the number of occurrences of a literal in them. *)
Definition satisfied_by (s : state) (C : clause) : bool := existsb (lit_true (tr s)) C.
Definition occurrences (l : lit) (cs : list clause) : Z :=
  Z.of_nat (length (filter (lit_eqb l) (concat cs))).
Definition bk_score (s : state) (v d : Z) : Z :=
  let open := filter (fun C => negb (satisfied_by s C)) (cl s) in
  occurrences (mkLit v d true) open - occurrences (mkLit v d false) open.

(** The atoms a heuristic may decide. *)
Definition undecided (p : problem) (s : state) (v d : Z) : Prop :=
  declared p v d /\ VAL (tr s) v = -1 /\ ASG (tr s) v d = Un.

(** The literal returned by the bookkeeping heuristic: none iff every variable has a value;
    otherwise an equality of an undecided atom of maximal score, the first one in the order of
    variables and values. *)
Definition bk_choice (p : problem) (s : state) (l : lit) : Prop :=
  (lvar l = -1 /\ forall v, 1 <= v <= nvars p -> VAL (tr s) v <> -1) \/
  (leq l = true /\ undecided p s (lvar l) (lval l) /\
   forall v d, undecided p s v d ->
     bk_score s v d < bk_score s (lvar l) (lval l) \/
     bk_score s v d = bk_score s (lvar l) (lval l) /\ (lvar l < v \/ lvar l = v /\ lval l <= d)).

(** The order in which literals are considered: by variable, by value, equality first. *)
Definition earlier (a b : lit) : Prop :=
  lvar a < lvar b \/ lvar a = lvar b /\
  (lval a < lval b \/ lval a = lval b /\ leq a = true /\ leq b = false).

(** The literal returned by VSIDS: an undecided one of maximal score, the first of these;
    [pos]: only equalities are considered. *)
Definition vsids_choice (pos : bool) (p : problem) (s : state) (l : lit) : Prop :=
  (lvar l = -1 /\ forall v, 1 <= v <= nvars p -> VAL (tr s) v <> -1) \/
  (undecided p s (lvar l) (lval l) /\ (pos = true -> leq l = true) /\
   forall l', undecided p s (lvar l') (lval l') -> (pos = true -> leq l' = true) ->
     SFltb (vs s l) (vs s l') = false /\ (earlier l' l -> SFltb (vs s l') (vs s l) = true)).
