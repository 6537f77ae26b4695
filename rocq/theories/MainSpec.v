(** * Specification of what the program writes

    The texts on the screen, independent of how the program produces them. *)

From Coq Require Import Ascii String Permutation.
From Verif Require Import Spec State Observe TextSpec ModelText CliSpec ModelMenu.
#[local] Open Scope char_scope.
#[local] Open Scope Z_scope.

Definition BEL : ascii := "007".

Definition stars : text := repeat "*" 72.
Definition title : text := unlines [[]; stars; []; txt "Finite Domain Sat Solver"; []; stars].

Definition error_lines (what : text) : list text := [[]; txt "**** ERROR ****"; what; []].

(** The answer of a solver run and the statistics: decisions, units, backtracks, entailments,
    variables, clauses, restarts. *)
Definition answer_lines (word : text) (d u b e n m r : Z) : list text :=
  [BEL :: word; [];
   txt "Decisions   : " ++ num d; txt "Units       : " ++ num u; txt "Backtracks  : " ++ num b;
   txt "Entails     : " ++ num e; txt "Variables   : " ++ num n; txt "Clauses     : " ++ num m;
   txt "Restarts   : " ++ num r; []].

(** The model, one literal on each line, followed by the outcome of the self-check. *)
Definition model_lines (verbose : bool) (ls : list lit) : list text :=
  txt "The model: " :: map lit_text ls ++ (if verbose then [[]] else []) ++ [txt "Verifying model ... model is CORRECT"].

(** [right p lazy verbose late word rest]: the word, and the lines after the statistics, are
    right for the problem [p]. *)
Inductive right (p : problem) (lazy verbose : bool) (late : nat -> bool) : text -> list text -> Prop :=
| RSat ls a : is_model p a ->
    (if lazy then forall l, In l ls -> lit_holds a l else Permutation ls (lines_of (nvars p) a)) ->
    right p lazy verbose late (txt "SAT") (model_lines verbose ls)
| RUnsat : ~ satisfiable p -> right p lazy verbose late (txt "UNSAT") []
| RTimeout k : late k = true -> right p lazy verbose late (txt "TIMEOUT") [].

(** The output of a solver run on the file [f]: the times [t1], [t2], [t3], what was logged, the
    answer, the rest. *)
Definition solver_screen (f t1 t2 t3 log : text) (ls : list text) : text :=
  title ++ f ++ SP :: TAB :: t1 ++ TAB :: log ++ t2 ++ TAB :: SP :: t3 ++ TAB :: unlines ([] :: [] :: ls).

(** ** The options of the converters and of -genben *)

Definition conv_words : list text := map txt ["-file"; "-model"]%string.
Definition conv_option (o : opt) : Prop :=
  match o with
  | OFile _ | OModelFile _ => True
  | OWord w => ~ In w conv_words
  | _ => False
  end.
Definition sel_model (o : opt) := match o with OModelFile f => Some (Some f) | _ => None end.

Inductive gen_opt :=
| GVar (n : Z) | GClause (n : Z) | GSize (n : Z) | GSat (n : Z) | GDomain (n : Z) | GDrand (n : Z) | GBool (n : Z)
| GFile (f : text) | GWord (w : text).

Definition gen_text (o : gen_opt) : list text :=
  match o with
  | GVar n => [txt "-var"; num n]
  | GClause n => [txt "-clause"; num n]
  | GSize n => [txt "-clausesize"; num n]
  | GSat n => [txt "-sat"; num n]
  | GDomain n => [txt "-domain"; num n]
  | GDrand n => [txt "-drand"; num n]
  | GBool n => [txt "-bool"; num n]
  | GFile f => [txt "-file"; f]
  | GWord w => [w]
  end.

Definition gen_words : list text :=
  map txt ["-var"; "-clause"; "-clausesize"; "-sat"; "-domain"; "-drand"; "-bool"; "-file"]%string.
Definition gen_option (o : gen_opt) : Prop :=
  match o with
  | GVar n | GClause n | GSize n | GSat n | GDomain n | GDrand n | GBool n => an_int n
  | GFile _ => True
  | GWord w => ~ In w gen_words
  end.

(** The last option that gives a value, or the default. *)
Fixpoint final {A} (sel : gen_opt -> option A) (os : list gen_opt) (default : A) : A :=
  match os with
  | [] => default
  | o :: os' => final sel os' (match sel o with Some a => a | None => default end)
  end.

(** ** The menu *)

(** Numbers entered one after the other, each followed by a character that is not a digit and
    by one more character. *)
Definition entered (ks : list (Z * ascii * ascii)) : text := List.concat (map (fun '(k, y, x) => num k ++ [y; x]) ks).
Definition choice (e : Z * ascii * ascii) : Prop := let '(k, y, _) := e in k <> 0 /\ an_int k /\ digit y = None.

(** The page shown for a choice. *)
Definition page (k : Z) : text :=
  menu_text ++ LF :: if (0 <=? k) && (k <=? 6) then nth (Z.to_nat k) [menu_0; menu_1; menu_2; menu_3; menu_4; menu_5; menu_6] [] else [].
