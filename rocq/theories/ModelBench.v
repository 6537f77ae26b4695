(** * The benchmark programs

    benchmarks/Pigeonhole/pigeon_script.cc, pigeonhole_script.py, benchmarks/Nqueens/Nqueens.cc,
    nqueens_sat.cc, benchmarks/Namazons/Namazons-generator.hs,
    benchmarks/Graph_Coloring/coloring_script.py and benchmarks/parse_results.cc: the texts they
    write.  The int counters of the C++ programs are modelled by integers without overflow (the
    programs use them for boards of at most 60 squares a side, except nqueens_sat.cc). *)

From Coq Require Import Ascii String.
From Verif Require Import Spec Outcome TextSpec ModelText ModelEncode.
#[local] Open Scope char_scope.
#[local] Open Scope list_scope.
#[local] Open Scope Z_scope.

(** [for ( int k = i ; k < j && k != stop ; k++ )], pigeon_script.cc:43, Nqueens.cc:34,45; [ks] are
    the values from [i] to [j - 1]. *)
Fixpoint until (stop : Z) (ks : list Z) : list Z :=
  match ks with
  | [] => []
  | k :: ks' => if k =? stop then [] else k :: until stop ks'
  end.

Definition flat {A} (f : A -> text) (l : list A) : text := List.concat (map f l).

(** [x != d y != e 0], the lines of all finite-domain generators. *)
Definition ne_line (x d y e : Z) : text :=
  num x ++ txt "!=" ++ num d ++ txt " " ++ num y ++ txt "!=" ++ num e ++ txt " 0".

(** ** pigeon_script.cc *)

(** The comment, pigeon_script.cc:29. *)
Definition pigeon_comment (pgn : Z) : text :=
  txt "c This is a pigeonhole problem with " ++ num pgn ++ txt " pigeons and " ++ num (pgn - 1) ++ txt " holes".

(** One file, pigeon_script.cc:17-50.  The number of clauses is computed in floating point, which
    is exact for the numbers of pigeons used. *)
Definition pigeon_file (pgn : Z) : text :=
  let hole := pgn - 1 in
  let clauses := ((pgn - 1) ^ 2 * pgn) / 2 in
  pigeon_comment pgn ++ [LF] ++
  txt "p cnf " ++ num pgn ++ txt " " ++ num clauses ++ [LF] ++
  flat (fun i => txt "d " ++ num i ++ txt " " ++ num hole ++ [LF]) (loop 1 (pgn + 1)) ++
  flat (fun i =>
    flat (fun j =>
      flat (fun k => ne_line j i k i ++ [LF]) (until j (loop 1 (pgn + 1))))
    (loop 1 (pgn + 1)))
  (loop 0 hole).

(** The files written, pigeon_script.cc:15-51: name and contents, in order. *)
Definition pigeon_main : list (text * text) :=
  map (fun pgn => (txt "pgn" ++ num pgn, pigeon_file pgn)) (loop 15 21).

(** ** pigeonhole_script.py *)

(** One file, pigeonhole_script.py:4-26.  The number of clauses is computed in floating point,
    which is exact for the numbers of pigeons used. *)
Definition pigeon_py (pgn : Z) : text :=
  let hole := pgn - 1 in
  let clauses := ((pgn - 1) ^ 2 * pgn) / 2 in
  pigeon_comment pgn ++ [LF] ++ txt "p cnf " ++ num pgn ++ txt " " ++ num clauses ++
  flat (fun i =>
    flat (fun j =>
      flat (fun d => if d =? j then [] else LF :: ne_line j i d i) (loop j (pgn + 1)))
    (loop 1 (pgn + 1)))
  (loop 0 hole).

(** pigeonhole_script.py:3-26 *)
Definition pigeon_py_main : list (text * text) :=
  map (fun pgn => (txt "pgn" ++ num pgn ++ txt ".txt", pigeon_py pgn)) (loop 2 101).

(** ** Nqueens.cc *)

(** The clauses, Nqueens.cc:32-55, as the arguments of [ne_line] in the order in which they are
    written; [clauses] counts them. *)
Definition queens_rows (queens : Z) : list (Z * Z * Z * Z) :=
  flat_map (fun i => flat_map (fun j => map (fun k => (j, i, k, i)) (until j (loop 1 (queens + 1))))
    (loop 1 (queens + 1))) (loop 0 queens).
Definition queens_diagonals (queens : Z) : list (Z * Z * Z * Z) :=
  flat_map (fun i => flat_map (fun k => flat_map (fun d => flat_map (fun l =>
    if (i - d =? k - l) || (i + d =? k + l) then [(i, d, k, l)] else [])
    (loop 0 queens)) (loop 0 queens)) (until i (loop 1 (queens + 1)))) (loop 1 (queens + 1)).

Definition ne_row (q : Z * Z * Z * Z) : text := let '(x, d, y, e) := q in ne_line x d y e ++ [LF].

(** One file, Nqueens.cc:15-61. *)
Definition queens_file (queens : Z) : text :=
  let r := queens_rows queens in
  let d := queens_diagonals queens in
  flat (fun i => txt "d " ++ num i ++ txt " " ++ num queens ++ [LF]) (loop 1 (queens + 1)) ++
  flat ne_row r ++ txt "c diagonals" ++ [LF] ++ flat ne_row d ++
  txt "p cnf " ++ num queens ++ txt " " ++ num (Z.of_nat (length r) + Z.of_nat (length d)) ++ [LF].

(** Nqueens.cc:12-65 *)
Definition queens_main : list (text * text) :=
  map (fun queens => (num queens ++ txt "queens", queens_file queens)) (loop 60 61).

(** ** nqueens_sat.cc *)

(** LessEqualOneToCNF, nqueens_sat.cc:28-40, what it appends to [cnf]. *)
Definition less_equal_one (literals : list Z) : list (list Z) :=
  let N := Z.of_nat (length literals) in
  flat_map (fun j => map (fun k => [- nth (Z.to_nat j) literals 0; - nth (Z.to_nat k) literals 0]) (loop (j + 1) N))
    (loop 0 (N - 1)).

(** EqualOneToCNF, nqueens_sat.cc:12-26. *)
Definition equal_one (literals : list Z) : list (list Z) := literals :: less_equal_one literals.

(** [VarName[i][j]], nqueens_sat.cc:46-53: numbered row by row from 1. *)
Definition var_name (N i j : Z) : Z := i * N + j + 1.

(** The clauses, nqueens_sat.cc:60-111, in order. *)
Definition sat_cnf (N : Z) : list (list Z) :=
  flat_map (fun i => equal_one (map (fun j => var_name N i j) (loop 0 N))) (loop 0 N) ++
  flat_map (fun i => equal_one (map (fun j => var_name N j i) (loop 0 N))) (loop 0 N) ++
  flat_map (fun i => less_equal_one (map (fun j => var_name N j (i + j)) (loop 0 (N - i)))) (loop 0 (N - 1)) ++
  flat_map (fun i => less_equal_one (map (fun j => var_name N (j + i) j) (loop 0 (N - i)))) (loop 1 (N - 1)) ++
  flat_map (fun i => less_equal_one (map (fun j => var_name N j (N - 1 - (i + j))) (loop 0 (N - i)))) (loop 0 (N - 1)) ++
  flat_map (fun i => less_equal_one (map (fun j => var_name N (j + i) (N - 1 - j)) (loop 0 (N - i)))) (loop 1 (N - 1)).

(** The file, nqueens_sat.cc:42-127, for the first argument [a] of the program.  A negative size
    in [new] throws; the square of [N] must fit in an int. *)
Definition sat_file (N : Z) : text :=
  let cnf := sat_cnf N in
  txt "p cnf " ++ num (N * N) ++ txt " " ++ num (Z.of_nat (length cnf)) ++ [LF] ++
  flat (fun c => flat (fun z => num z ++ txt " ") c ++ txt " 0" ++ [LF]) cnf ++ [LF].
Definition sat_main (a : text) : outcome text :=
  let* N := atoi a in
  if N <? 0 then Undef BadAlloc
  else do* i32 (N * N) in Ok (sat_file N).

(** ** Namazons-generator.hs *)

(** [[i..j]] *)
Definition range (i j : Z) : list Z := loop i (j + 1).
Definition elem (x : Z) (l : list Z) : bool := existsb (Z.eqb x) l.

(** [[ line x k y l | x <- ..., k <- ... ]] for the knight moves, Namazons-generator.hs:31-42. *)
Definition knight (n dx dk : Z) : list text :=
  flat_map (fun x => flat_map (fun k =>
    if elem (x + dx) (range 1 n) && elem (k + dk) (range 0 (n - 1)) then [ne_line x k (x + dx) (k + dk)] else [])
    (range 0 (n - 1))) (range 1 n).

(** The diagonals, Namazons-generator.hs:25-30. *)
Definition diagonal (n dir : Z) : list text :=
  flat_map (fun x => flat_map (fun k => flat_map (fun y =>
    if elem (k + dir * (y - x)) (range 0 (n - 1)) then [ne_line x k y (k + dir * (y - x))] else [])
    (range (x + 1) n)) (range 0 (n - 1))) (range 1 n).

(** The columns, Namazons-generator.hs:22-24. *)
Definition alldiff (n : Z) : list text :=
  flat_map (fun x => flat_map (fun y => if x <? y then map (fun k => ne_line x k y k) (range 0 (n - 1)) else [])
    (range 1 n)) (range 1 n).

(** The output, Namazons-generator.hs:9-42. *)
Definition amazons_file (n : Z) : text :=
  unlines
    ((txt "c " ++ num n ++ txt " amazons. see https://de.wikipedia.org/wiki/Damenproblem#Andere_Figuren") ::
     txt "c one variable per row, value is the column to place an amazon:" ::
     map (fun i => txt "d " ++ num i ++ txt " " ++ num n) (range 1 n) ++
     txt "c Only one amazon per column:" :: alldiff n ++
     txt "c only one per diagonal:" :: (diagonal n 1 ++ diagonal n (-1)) ++
     txt "c attack relation of knights: " :: (knight n 1 2 ++ knight n 1 (-2) ++ knight n 2 1 ++ knight n 2 (-1))).

(** ** coloring_script.py

    One graph file.  Files are taken to be ASCII; the translation of carriage returns at line
    ends by text mode is not modelled. *)

(** str.split(): white space of ASCII. *)
Definition py_space (a : ascii) : bool :=
  let n := nat_of_ascii a in (Nat.leb 9 n && Nat.leb n 13) || (Nat.leb 28 n && Nat.leb n 32).
Fixpoint py_split (cur : text) (t : text) : list text :=
  match t with
  | [] => match cur with [] => [] | _ => [rev cur] end
  | a :: t' =>
      if py_space a then match cur with [] => py_split [] t' | _ => rev cur :: py_split [] t' end
      else py_split (a :: cur) t'
  end.

(** int(): an optional sign, then digits, between which single underscores are allowed.
    [None]: ValueError. *)
Fixpoint py_digits (acc : Z) (t : text) : option Z :=
  match t with
  | [] => Some acc
  | a :: t' =>
      match digit a with
      | Some d => py_digits (10 * acc + d) t'
      | None =>
          if Ascii.eqb a "_" then
            match t' with
            | b :: t'' => match digit b with Some d => py_digits (10 * acc + d) t'' | None => None end
            | [] => None
            end
          else None
      end
  end.
Definition py_nat (t : text) : option Z :=
  match t with
  | a :: t' => match digit a with Some d => py_digits d t' | None => None end
  | [] => None
  end.
Definition py_int (t : text) : option Z :=
  match t with
  | "-" :: t' => match py_nat t' with Some z => Some (- z) | None => None end
  | "+" :: t' => py_nat t'
  | _ => py_nat t
  end.

(** The lines readline() returns, each with its line feed. *)
Fixpoint py_lines (cur : text) (t : text) : list text :=
  match t with
  | [] => match cur with [] => [] | _ => [rev cur] end
  | a :: t' => if Ascii.eqb a LF then rev (LF :: cur) :: py_lines [] t' else py_lines (a :: cur) t'
  end.

(** problem_line_encountered, omit_comments, sources and targets, the result file. *)
Record coloring := mkColoring { k_problem : bool; k_omit : bool; k_edges : list (Z * Z); k_out : text }.

(** convert_problem_line, coloring_script.py:15-26; [None] if an exception is raised. *)
Definition color_problem (N : Z) (line : text) : option text :=
  match nth_error (py_split [] line) 2, nth_error (py_split [] line) 3 with
  | Some a, Some b =>
      match py_int a, py_int b with
      | Some n, Some m =>
          Some (txt "p cnf " ++ num n ++ txt " " ++ num (m * N) ++ [LF] ++
                flat (fun v => txt "d " ++ num v ++ txt " " ++ num N ++ [LF]) (loop 1 (n + 1)))
      | _, _ => None
      end
  | _, _ => None
  end.

(** One line, coloring_script.py:78-103; the second component says whether the report is OK. *)
Definition color_line (N : Z) (s : coloring) (line : text) : coloring * bool :=
  match line with
  | "p" :: _ =>
      if k_problem s then (s, false)
      else match color_problem N line with
           | Some t => (mkColoring true (k_omit s) (k_edges s) (k_out s ++ t), true)
           | None => (mkColoring true (k_omit s) (k_edges s) (k_out s), false)
           end
  | "e" :: _ =>
      match firstn 2 (skipn 1 (py_split [] line)) with
      | [a; b] =>
          match py_int a, py_int b with
          | Some u, Some v => (mkColoring (k_problem s) true (k_edges s ++ [(u, v)]) (k_out s), true)
          | _, _ => (mkColoring (k_problem s) true (k_edges s) (k_out s), false)
          end
      | _ => (mkColoring (k_problem s) true (k_edges s) (k_out s), false)
      end
  | "c" :: _ => (if k_omit s then s else mkColoring (k_problem s) (k_omit s) (k_edges s) (k_out s ++ line), true)
  | _ => (s, false)
  end.

Fixpoint color_lines (N : Z) (s : coloring) (ls : list text) : coloring * bool :=
  match ls with
  | [] => (s, true)
  | l :: ls' => let (s, ok) := color_line N s l in if ok then color_lines N s ls' else (s, false)
  end.

(** The clauses, coloring_script.py:115-117. *)
Definition color_clauses (N : Z) (es : list (Z * Z)) : text :=
  flat (fun d => flat (fun e => ne_line (fst e) d (snd e) d ++ [LF]) es) (loop 0 N).

(** The result file and whether the graph file was converted, coloring_script.py:62-117.  After a
    reported error the program ends, or, with -s, removes the file and then appends the clauses to
    it all the same. *)
Definition color_file (N : Z) (skip : bool) (t : text) : text * bool :=
  let (s, ok) := color_lines N (mkColoring false false [] []) (py_lines [] t) in
  if ok then (k_out s ++ color_clauses N (k_edges s), true)
  else if skip then (color_clauses N (k_edges s), false)
  else (k_out s, false).

(** ** parse_results.cc *)

(** The scan of a line, parse_results.cc:18-29, from position [i] on: a colon is followed by a
    copy of the line from two characters further on, up to and including the terminating NUL. *)
Fixpoint parse_line (l : text) : text :=
  match l with
  | [] => []
  | a :: l' =>
      (if Ascii.eqb a ":" then skipn 1 (l' ++ [NUL]) ++ [SP]
       else if Ascii.eqb a "T" && (match l' with b :: _ => Ascii.eqb b "h" | [] => false end) then [LF]
       else []) ++ parse_line l'
  end.

(** getline on a string: the lines, without line feeds; a last line without line feed is
    delivered unless it is empty. *)
Fixpoint str_lines (cur : text) (t : text) : list text :=
  match t with
  | [] => match cur with [] => [] | _ => [rev cur] end
  | a :: t' => if Ascii.eqb a LF then rev cur :: str_lines [] t' else str_lines (a :: cur) t'
  end.

(** The output, parse_results.cc:16-31. *)
Definition parse_results (t : text) : text := flat (fun l => parse_line (cstr l)) (str_lines [] t).

(** Nqueens/Output.cc:16-37: the same without the second case; one line feed at the end. *)
Fixpoint output_line (l : text) : text :=
  match l with
  | [] => []
  | a :: l' => (if Ascii.eqb a ":" then skipn 1 (l' ++ [NUL]) ++ [SP] else []) ++ output_line l'
  end.
Definition output_cc (t : text) : text := flat (fun l => output_line (cstr l)) (str_lines [] t) ++ [LF].
