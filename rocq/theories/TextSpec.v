(** * Specification of the file formats

    Texts are lists of characters.  This file is independent of the program: it says what it
    means for a text to be a problem file in the extended DIMACS format of README.md, or a
    Boolean DIMACS file. *)

From Coq Require Import Ascii String.
From Coq Require Import DecimalString Decimal.
From Verif Require Import Spec.
#[local] Open Scope char_scope.
#[local] Open Scope Z_scope.

Definition text := list ascii.

Definition LF : ascii := "010".
Definition SP : ascii := " ".
Definition TAB : ascii := "009".

(** A string constant as a text. *)
Definition txt (s : string) : text := list_ascii_of_string s.

(** Decimal notation (of the standard library). *)
Definition num (z : Z) : text := txt (NilZero.string_of_int (Z.to_int z)).

(** Lines, each closed by a line feed. *)
Definition unlines (ls : list text) : text := List.concat (map (fun l => l ++ [LF]) ls).

(** The text consists of the lines [ls]; the line feed after the last one may be missing. *)
Definition has_lines (t : text) (ls : list text) : Prop :=
  (forall l, In l ls -> ~ In LF l) /\
  (t = unlines ls \/ t ++ [LF] = unlines ls /\ last ls [] <> []).

(** The blank-separated words of a line. *)
Definition blank (a : ascii) : bool := Ascii.eqb a SP || Ascii.eqb a TAB.
Definition flush (w : text) (ws : list text) : list text :=
  match w with [] => ws | _ => w :: ws end.
Fixpoint words_from (w : text) (t : text) : list text :=
  match t with
  | [] => flush w []
  | a :: t' => if blank a then flush w (words_from [] t') else words_from (w ++ [a]) t'
  end.
Definition words (t : text) : list text := words_from [] t.

(** ** Extended DIMACS *)

Definition starts (a : ascii) (l : text) : Prop := exists l', l = a :: l'.
Definition is_comment (l : text) : bool := match l with a :: _ => Ascii.eqb a "c" | [] => false end.

Definition lit_text (l : lit) : text :=
  num (lvar l) ++ txt (if leq l then "=" else "!=") ++ num (lval l).

(** [p f n m], where [f] is the name of the format *)
Definition header_line (f : text) (p : problem) (l : text) : Prop :=
  starts "p" l /\ words l = [txt "p"; f; num (nvars p); num (Z.of_nat (length (clauses p)))].

(** [d v size] *)
Definition domain_line (v size : Z) (l : text) : Prop :=
  starts "d" l /\ words l = [txt "d"; num v; num size].

Fixpoint domain_lines (v : Z) (sizes : list Z) (ls : list text) : Prop :=
  match sizes, ls with
  | [], [] => True
  | d :: sizes', l :: ls' => domain_line v d l /\ domain_lines (v + 1) sizes' ls'
  | _, _ => False
  end.

(** The literals, then [0]. *)
Definition clause_line (c : clause) (l : text) : Prop :=
  words l = map lit_text c ++ [txt "0"].

(** [t] is a file for the problem [p]: apart from comment lines, the problem line, the domain
    lines in order, the clause lines. *)
Definition documented_as (f : text) (p : problem) (t : text) : Prop :=
  exists ls hd ds cs,
    has_lines t ls /\ filter (fun l => negb (is_comment l)) ls = hd :: ds ++ cs /\
    header_line f p hd /\ domain_lines 1 (doms p) ds /\ Forall2 clause_line (clauses p) cs.

(** README.md gives [mvcnf] as the name of the format, the generated files use [cnf]. *)
Definition documented (p : problem) (t : text) : Prop :=
  documented_as (txt "cnf") p t \/ documented_as (txt "mvcnf") p t.

(** The same, but the closing [0] of a clause line may be missing. *)
Definition open_line (c : clause) (l : text) : Prop := words l = map lit_text c \/ clause_line c l.
Definition readable (p : problem) (t : text) : Prop :=
  exists f ls hd ds cs, (f = txt "cnf" \/ f = txt "mvcnf") /\
    has_lines t ls /\ filter (fun l => negb (is_comment l)) ls = hd :: ds ++ cs /\
    header_line f p hd /\ domain_lines 1 (doms p) ds /\ Forall2 open_line (clauses p) cs.

(** [p f n m], with any numbers that fit in an int *)
Definition int_max : Z := 2147483647.
Definition is_problem (l : text) : bool := match l with a :: _ => Ascii.eqb a "p" | [] => false end.
Definition problem_line (l : text) : Prop :=
  exists f n m, (f = txt "cnf" \/ f = txt "mvcnf") /\ 0 <= n <= int_max /\ 0 <= m <= int_max /\
    words l = [txt "p"; f; num n; num m].

(** The same, but there may be any number of problem lines, in any place and with any numbers. *)
Definition accepted (p : problem) (t : text) : Prop :=
  exists ls ds cs, has_lines t ls /\ (forall l, In l ls -> is_problem l = true -> problem_line l) /\
    filter (fun l => negb (is_comment l || is_problem l)) ls = ds ++ cs /\
    domain_lines 1 (doms p) ds /\ Forall2 open_line (clauses p) cs.

(** One such file: single blanks, no comments. *)
Fixpoint join (ws : list text) : text :=
  match ws with [] => [] | [w] => w | w :: ws' => w ++ SP :: join ws' end.
Fixpoint domain_rows (v : Z) (sizes : list Z) : list text :=
  match sizes with [] => [] | d :: sizes' => join [txt "d"; num v; num d] :: domain_rows (v + 1) sizes' end.
Definition layout (p : problem) : text :=
  unlines (join [txt "p"; txt "cnf"; num (nvars p); num (Z.of_nat (length (clauses p)))] ::
           domain_rows 1 (doms p) ++ map (fun c => join (map lit_text c ++ [txt "0"])) (clauses p)).

(** A line that is neither a comment nor a problem line nor a domain line. *)
Definition clause_row (l : text) : bool :=
  match l with a :: _ => negb (Ascii.eqb a "c" || Ascii.eqb a "p" || Ascii.eqb a "d") | [] => true end.

(** All lines are shorter than [n] characters. *)
Definition lines_below (n : Z) (t : text) : Prop :=
  forall ls, has_lines t ls -> forall l, In l ls -> Z.of_nat (length l) < n.

(** The numbers of the problem fit in an int. *)
Definition fits_int (p : problem) : Prop :=
  nvars p <= int_max /\ Z.of_nat (length (clauses p)) <= int_max /\ forall d, In d (doms p) -> d <= int_max.

(** ** Boolean DIMACS *)

(** A CNF: clauses of non-zero integers. *)
Definition cnf := list (list Z).
Definition bool_holds (b : Z -> bool) (z : Z) : Prop := if 0 <? z then b z = true else b (- z) = false.
Definition cnf_holds (b : Z -> bool) (f : cnf) : Prop :=
  forall c, In c f -> exists z, In z c /\ bool_holds b z.

(** [t] is a DIMACS file with the header [p cnf nv nc] and the clauses [f], one per line. *)
Definition dimacs (nv nc : Z) (f : cnf) (t : text) : Prop :=
  exists hd cs, has_lines t (hd :: cs) /\
    words hd = [txt "p"; txt "cnf"; num nv; num nc] /\
    Forall2 (fun c l => words l = map num c ++ [txt "0"]) f cs.
