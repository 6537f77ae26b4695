(** * The generators of random Boolean problems

    /repo/tests/RandomSAT: fixed_clauses.py (the same program as random_sat.py) and
    constant_probability.py.  [w k] stands for the [k]-th random number of the run; a run draws
    them one after the other, and every sequence is possible.  [None]: an exception is raised.
    The conversion of the arguments of the command line by int() is not modelled. *)

From Coq Require Import Ascii String.
From Verif Require Import Spec TextSpec ModelEncode.
#[local] Open Scope char_scope.
#[local] Open Scope list_scope.
#[local] Open Scope Z_scope.

(** random.randint(a, b): a number from [a] to [b]; ValueError if there is none.  The number
    [w k] is reduced to the range.  The second component of the result is the number of random
    numbers drawn so far. *)
Definition randint (w : nat -> Z) (a b : Z) (k : nat) : option (Z * nat) :=
  if b <? a then None else Some (a + w k mod (b - a + 1), S k).

(** A loop or list comprehension over [l] that draws in each step: the list of the results. *)
Fixpoint collect {A B} (f : A -> nat -> option (B * nat)) (l : list A) (k : nat) : option (list B * nat) :=
  match l with
  | [] => Some ([], k)
  | x :: l' =>
      match f x k with
      | None => None
      | Some (b, k) => match collect f l' k with None => None | Some (bs, k) => Some (b :: bs, k) end
      end
  end.

(** [" ".join(str(i) for i in k) + ' 0\n'], fixed_clauses.py:19, constant_probability.py:34 *)
Definition sat_row (c : list Z) : text := join (map num c) ++ txt " 0" ++ [LF].

(** The text, fixed_clauses.py:15-20, constant_probability.py:30-35 *)
Definition sat_text (number_variables number_clauses : Z) (formula : cnf) : text :=
  txt "p cnf " ++ num number_variables ++ txt " " ++ num number_clauses ++ [LF] ++ List.concat (map sat_row formula).

(** ** fixed_clauses.py *)

(** One clause, fixed_clauses.py:7-11: the variables first, then the signs. *)
Definition fixed_clause (w : nat -> Z) (number_variables clause_length : Z) (k : nat) : option (list Z * nat) :=
  match collect (fun _ => randint w 1 number_variables) (loop 0 clause_length) k with
  | None => None
  | Some (clause, k) =>
      collect (fun x k =>
        match randint w 1 2 k with
        | None => None
        | Some (flip, k) => Some (if flip =? 1 then - x else x, k)
        end) clause k
  end.

(** sat_formula, fixed_clauses.py:4-13 *)
Definition fixed_formula (w : nat -> Z) (number_variables number_clauses clause_length : Z) : option cnf :=
  match collect (fun _ => fixed_clause w number_variables clause_length) (loop 0 number_clauses) 0 with
  | None => None
  | Some (formula, _) => Some formula
  end.

(** dimacs, fixed_clauses.py:15-21 *)
Definition fixed_dimacs (w : nat -> Z) (number_variables number_clauses clause_length : Z) : option text :=
  match fixed_formula w number_variables number_clauses clause_length with
  | None => None
  | Some formula => Some (sat_text number_variables number_clauses formula)
  end.

(** The program, fixed_clauses.py:23-28, for two numbers as its arguments: what it writes to
    the standard output.  The print statement ends the line. *)
Definition fixed_main (w : nat -> Z) (number_variables number_clauses : Z) : option text :=
  match fixed_dimacs w number_variables number_clauses 3 with
  | None => None
  | Some s => Some (s ++ [LF])
  end.

(** ** constant_probability.py *)

(** random_clause, constant_probability.py:6-16: what is appended for each variable. *)
Definition constant_clause (w : nat -> Z) (number_variables : Z) (k : nat) : option (list Z * nat) :=
  match
    collect (fun i k =>
      match randint w 1 2 k with
      | None => None
      | Some (flip_coin, k) =>
          if flip_coin =? 1 then
            match randint w 1 2 k with
            | None => None
            | Some (flip_more, k) => Some ([if flip_more =? 1 then - i else i], k)
            end
          else Some ([], k)
      end) (loop 1 (number_variables + 1)) k
  with
  | None => None
  | Some (parts, k) => Some (List.concat parts, k)
  end.

(** The set of the variables of the formula, constant_probability.py:21-23. *)
Definition variables_in (formula : cnf) : list Z := nodup Z.eq_dec (map Z.abs (List.concat formula)).

(** random_formula and dimacs_formula, constant_probability.py:18-35: the text and the number of
    variables that occur.  The average length is not modelled, but its division by the number
    of clauses is: ZeroDivisionError. *)
Definition constant_dimacs (w : nat -> Z) (number_variables number_clauses : Z) : option (text * Z) :=
  match collect (fun _ => constant_clause w number_variables) (loop 1 (number_clauses + 1)) 0 with
  | None => None
  | Some (formula, _) =>
      if number_clauses =? 0 then None
      else Some (sat_text number_variables number_clauses formula, Z.of_nat (length (variables_in formula)))
  end.
