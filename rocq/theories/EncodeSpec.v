(** * Specification of the encoders' output *)

From Coq Require Import Ascii String.
From Verif Require Import Spec TextSpec.
#[local] Open Scope char_scope.
#[local] Open Scope Z_scope.

(** ** Clauses over the atoms [v=d]

    -quadenc writes propositional clauses whose atoms are the equalities: [v=d] is the atom,
    [-v=d] its negation.  A literal [mkLit v d e] is read propositionally: an interpretation
    gives a truth value to every pair of a variable and a value. *)

Definition atom_lit_text (l : lit) : text :=
  (if leq l then [] else ["-"]) ++ num (lvar l) ++ "=" :: num (lval l).

Definition atoms_hold (b : Z -> Z -> bool) (f : list clause) : Prop :=
  forall c, In c f -> exists l, In l c /\ b (lvar l) (lval l) = leq l.

(** [t] has the header [p cnf nv nc] and the clauses [f] over positive variables, one per line;
    the closing [0] may be missing. *)
Definition atom_cnf (nv nc : Z) (f : list clause) (t : text) : Prop :=
  (forall c l, In c f -> In l c -> 0 < lvar l) /\
  exists hd cs, has_lines t (hd :: cs) /\
    words hd = [txt "p"; txt "cnf"; num nv; num nc] /\
    Forall2 (fun c l => words l = map atom_lit_text c \/ words l = map atom_lit_text c ++ [txt "0"]) f cs.

(** ** Sizes *)

Definition zsum (l : list Z) : Z := fold_right Z.add 0 l.

(** ** Correspondence of solutions *)

(** Two-valued variables occur in equalities only. *)
Definition two_valued_positive (p : problem) : Prop :=
  forall c l, In c (clauses p) -> In l c -> domsize p (lvar l) = 2 -> leq l = true.

(** The Boolean literal [e v d] stands for [v=d]: the interpretation [b] and the assignment [a]
    agree on every declared value. *)
Definition corresponds (p : problem) (e : Z -> Z -> Z) (b : Z -> bool) (a : assignment) : Prop :=
  forall v d, 1 <= v <= nvars p -> 0 <= d < domsize p v -> (bool_holds b (e v d) <-> a v = d).

Definition atoms_correspond (p : problem) (b : Z -> Z -> bool) (a : assignment) : Prop :=
  forall v d, 1 <= v <= nvars p -> 0 <= d < domsize p v -> (b v d = true <-> a v = d).

(** How often a declared domain has two values. *)
Definition twos (p : problem) : Z := Z.of_nat (length (filter (fun d => d =? 2) (doms p))).

(** ** Boolean problems *)

(** The clauses use exactly the variables [1 .. n], and none is empty. *)
Definition bool_cnf (n : Z) (f : cnf) : Prop :=
  (forall c, In c f -> c <> [] /\ forall z, In z c -> 1 <= Z.abs z <= n) /\
  (forall v, 1 <= v <= n -> exists c z, In c f /\ In z c /\ Z.abs z = v).

(** A DIMACS file with comments: the problem line, then one line for each clause. *)
Definition bool_file (n : Z) (f : cnf) (t : text) : Prop :=
  exists ls hd cs, has_lines t ls /\ filter (fun l => negb (is_comment l)) ls = hd :: cs /\
    starts "p" hd /\ words hd = [txt "p"; txt "cnf"; num n; num (Z.of_nat (length f))] /\
    Forall2 (fun c l => words l = map num c ++ [txt "0"]) f cs.

(** The same clauses over variables with the values 0 (false) and 1 (true). *)
Definition finite_lit (z : Z) : lit := mkLit (Z.abs z) (if 0 <? z then 1 else 0) true.
Definition finite_of (n : Z) (f : cnf) : problem :=
  mkProblem (repeat 2 (Z.to_nat n)) (map (map finite_lit) f).

(** One such file. *)
Definition bool_layout (n : Z) (f : cnf) : text :=
  unlines (join [txt "p"; txt "cnf"; num n; num (Z.of_nat (length f))] :: map (fun c => join (map num c ++ [txt "0"])) f).
