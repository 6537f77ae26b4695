(** * The two encoders

    LinearEncode (src/LinearEncode.cc:17-203) and QuadraticEncode (src/QuadraticEncode.cc:14-157):
    from the text of the input file to the text of the output file.  [outfile << n] writes the
    decimal notation of [n], [endl] a line feed.  [temp], [isneg] and the return values of sscanf
    are never used. *)

From Coq Require Import Ascii String.
From Verif Require Import Spec Outcome TextSpec ModelText.
#[local] Open Scope char_scope.
#[local] Open Scope Z_scope.

(** The result of an int operation; signed overflow is undefined behaviour. *)
Definition i32 (z : Z) : outcome Z := if in_int z then Ok z else Undef Overflow.

(** [outfile << n << " "] *)
Definition put (z : Z) : text := num z ++ [SP].

(** The integers [i, i+1, ..., j-1] of the loops [for(int k=i; k<j; k++)]. *)
Definition loop (i j : Z) : list Z := map (fun k => i + Z.of_nat k) (seq 0 (Z.to_nat (j - i))).

(** ** LinearEncode *)

(** The local variables.  [domain] and [index] are arrays of [l_size] elements once the problem
    line was read ([None]: the pointers are not initialised); an element of [index] may be
    uninitialised. *)
Record lin := mkLin {
  l_regs : regs;
  l_size : option Z;
  l_domain : Z -> Z;
  l_index : Z -> option Z;
  l_num_clause : Z; l_num_var : Z; l_new_clause : Z; l_new_var : Z;
  l_done : bool; l_count : Z;
  l_out : text
}.

Definition lin_start : lin :=
  mkLin no_regs None (fun _ => 0) (fun _ => None) 0 0 0 0 false 0 [].

Definition l_set_regs (s : lin) (g : regs) : lin :=
  mkLin g (l_size s) (l_domain s) (l_index s) (l_num_clause s) (l_num_var s) (l_new_clause s) (l_new_var s)
    (l_done s) (l_count s) (l_out s).
Definition l_write (s : lin) (t : text) : lin :=
  mkLin (l_regs s) (l_size s) (l_domain s) (l_index s) (l_num_clause s) (l_num_var s) (l_new_clause s) (l_new_var s)
    (l_done s) (l_count s) (l_out s ++ t).

(** The bounds check of domain[i] and index[i]. *)
Definition l_in (s : lin) (i : Z) : outcome unit :=
  match l_size s with
  | None => Undef Uninit
  | Some n => if (0 <=? i) && (i <? n) then Ok tt else Undef OobAtom
  end.
Definition get_domain (s : lin) (i : Z) : outcome Z := do* l_in s i in Ok (l_domain s i).
Definition get_index (s : lin) (i : Z) : outcome Z := do* l_in s i in get (l_index s i).

Definition fset {A} (f : Z -> A) (i : Z) (a : A) : Z -> A := fun j => if j =? i then a else f j.

(** The problem line, LinearEncode.cc:69-81. *)
Definition lin_problem (s : lin) (b : text) : outcome lin :=
  let* g := sscanf fmt_p b (l_regs s) in
  let* var := get (g_var g) in
  let* val := get (g_val g) in
  let* n := i32 (var + 1) in
  if n <? 0 then Undef BadAlloc
  else Ok (mkLin g (Some n) (fun _ => 2) (fun _ => None) val var (l_new_clause s) (l_new_var s)
             (l_done s) (l_count s) (l_out s)).

(** A domain line, LinearEncode.cc:83-90. *)
Definition lin_domain (s : lin) (b : text) : outcome lin :=
  let* g := sscanf fmt_d b (l_regs s) in
  let* var := get (g_var g) in
  let* val := get (g_val g) in
  let* v2 := i32 (2 * val) in
  let* v21 := i32 (v2 - 1) in
  let* nv := i32 (l_new_var s + v21) in
  let* vm := i32 (val - 2) in
  let* v4 := i32 (4 * vm) in
  let* v43 := i32 (v4 + 3) in
  let* v44 := i32 (v43 + 1) in
  let* nc := i32 (l_new_clause s + v44) in
  do* l_in s var in
  Ok (mkLin g (l_size s) (fset (l_domain s) var val) (l_index s) (l_num_clause s) (l_num_var s) nc nv
        (l_done s) (l_count s + 1) (l_out s)).

(** The loop that fills [index], LinearEncode.cc:102-109. *)
Definition lin_index_step (s : lin) (i : Z) : outcome lin :=
  let* d := get_domain s (i - 1) in
  let* x := get_index s (i - 1) in
  let* y := if d =? 2 then i32 (x + 1)
            else let* a := i32 (2 * d) in let* a := i32 (a - 1) in i32 (a + x) in
  do* l_in s i in
  Ok (mkLin (l_regs s) (l_size s) (l_domain s) (fset (l_index s) i (Some y)) (l_num_clause s) (l_num_var s)
        (l_new_clause s) (l_new_var s) (l_done s) (l_count s) (l_out s)).

(** The clauses for one variable, LinearEncode.cc:112-144.  The sums are computed in int; only
    the extreme values are checked by [i32] (the others lie between them). *)
Definition lin_extra (s : lin) (i : Z) : outcome lin :=
  let* d := get_domain s i in
  if 2 <? d then
    let* x := get_index s i in
    do* i32 (- x) in
    let* t1 := i32 (x + d) in
    do* i32 (t1 + (d - 2)) in
    let s := l_write s (List.concat (map (fun j => put (x + j)) (loop 0 d)) ++ txt " 0" ++ [LF]) in
    let s := l_write s (put (- t1) ++ put x ++ txt "0" ++ [LF]) in
    let s := l_write s (put t1 ++ put (- x) ++ txt "0" ++ [LF]) in
    let s := l_write s (List.concat (map (fun j =>
               put (- (t1 + 1 + j)) ++ put (t1 + j) ++ put (x + 1 + j) ++ txt "0" ++ [LF] ++
               put (t1 + 1 + j) ++ put (- (t1 + j)) ++ txt "0" ++ [LF] ++
               put (t1 + 1 + j) ++ put (- (x + 1 + j)) ++ txt "0" ++ [LF]) (loop 0 (d - 2)))) in
    Ok (l_write s (List.concat (map (fun j =>
          put (- (x + d + j)) ++ put (- (x + 1 + j)) ++ txt "0" ++ [LF]) (loop 0 (d - 1)))))
  else Ok s.

(** The block executed at the first clause line, LinearEncode.cc:94-145. *)
Definition lin_first (s : lin) : outcome lin :=
  if l_done s then Ok s
  else
    let* nc := i32 (l_new_clause s + l_num_clause s) in
    let* df := i32 (l_num_var s - l_count s) in
    let* nv := i32 (l_new_var s + df) in
    do* l_in s 1 in
    let s := mkLin (l_regs s) (l_size s) (l_domain s) (fset (l_index s) 1 (Some 1)) (l_num_clause s) (l_num_var s)
               nc nv true (l_count s) (l_out s ++ txt "p cnf " ++ put nv ++ num nc ++ [LF]) in
    let* s := foldM lin_index_step (loop 2 (l_num_var s + 1)) s in
    foldM lin_extra (loop 0 (l_num_var s + 1)) s.

(** One word, LinearEncode.cc:162-196.  [var] is overwritten by the Boolean variable. *)
Definition lin_word (s : lin) (w : text) : outcome lin :=
  let* g := sscanf fmt_eq w (l_regs s) in
  let* ch := get (g_ch g) in
  let* g := if Ascii.eqb ch "!" then sscanf fmt_ne w g else Ok g in
  let* var := get (g_var g) in
  let s := l_set_regs s g in
  if var =? 0 then Ok s
  else
    let* d := get_domain s var in
    let* val := get (g_val g) in
    let* x := get_index s var in
    let put_var (z : Z) (t : text) := l_write (l_set_regs s (mkRegs (Some z) (g_val g) (g_ch g))) t in
    if 2 <? d then
      let* z := i32 (x + val) in
      let* ch := get (g_ch g) in
      Ok (put_var z (if Ascii.eqb ch "!" then "-" :: put z else put z))
    else if val =? 1 then Ok (put_var x (put x))
    else let* z := i32 (- x) in Ok (put_var z (put z)).

(** A clause line, LinearEncode.cc:92-198. *)
Definition lin_clause (s : lin) (b : text) : outcome lin :=
  let* s := lin_first s in
  let* s := foldM lin_word (line_words [] b) s in
  Ok (l_write s (txt "0" ++ [LF])).

Definition lin_line (s : lin) (line : text) : outcome lin :=
  let b := cstr line in
  match b with
  | "c" :: _ => Ok s
  | "p" :: _ => lin_problem s b
  | "d" :: _ => lin_domain s b
  | _ => lin_clause s b
  end.

Definition linear_encode (t : text) : outcome text :=
  let* s := foldM lin_line (getlines [] t) lin_start in Ok (l_out s).

(** ** QuadraticEncode *)

(** Fact, QuadraticEncode.cc:14-20. *)
Definition fact (n : Z) : outcome Z := foldM (fun t x => i32 (t * x)) (loop 1 (n + 1)) 1.

Record quad := mkQuad {
  q_regs : regs; q_clause : Z; q_var : Z; q_done : bool;
  q_list : list (Z * Z);   (* VAR_LIST: VAR and DOMAINSIZE *)
  q_out : text
}.
Definition quad_start : quad := mkQuad no_regs 0 0 false [] [].

Definition q_write (s : quad) (t : text) : quad :=
  mkQuad (q_regs s) (q_clause s) (q_var s) (q_done s) (q_list s) (q_out s ++ t).

(** QuadraticEncode.cc:74-80 *)
Definition quad_problem (s : quad) (b : text) : outcome quad :=
  let* g := sscanf fmt_p b (q_regs s) in
  let* val := get (g_val g) in
  let* nc := i32 (q_clause s + val) in
  Ok (mkQuad g nc (q_var s) (q_done s) (q_list s) (q_out s)).

(** QuadraticEncode.cc:82-91 *)
Definition quad_domain (s : quad) (b : text) : outcome quad :=
  let* g := sscanf fmt_d b (q_regs s) in
  let* var := get (g_var g) in
  let* val := get (g_val g) in
  if val <? 0 then Undef BadAlloc
  else
    let* nv := i32 (q_var s + val) in
    let* f1 := fact val in
    let* v2 := i32 (val - 2) in
    let* f2 := fact v2 in
    let* f3 := fact 2 in
    let* f4 := i32 (f2 * f3) in
    let* nc := i32 (q_clause s + f1 / f4) in
    let* nc := i32 (nc + 1) in
    Ok (mkQuad g nc nv (q_done s) (q_list s ++ [(var, val)]) (q_out s)).

(** [outfile << v << "=" << d] *)
Definition atom_text (v d : Z) : text := num v ++ "=" :: num d.

(** QuadraticEncode.cc:100-114 *)
Definition quad_rows (x : Z * Z) : text :=
  let (v, n) := x in
  List.concat (map (fun y => atom_text v y ++ [SP]) (loop 0 n)) ++ [LF] ++
  List.concat (map (fun p => List.concat (map (fun q =>
    "-" :: atom_text v p ++ SP :: "-" :: atom_text v q ++ [LF]) (loop (p + 1) n))) (loop 0 n)).

(** QuadraticEncode.cc:95-115 *)
Definition quad_first (s : quad) : quad :=
  if q_done s then s
  else mkQuad (q_regs s) (q_clause s) (q_var s) true (q_list s)
         (q_out s ++ txt "p cnf " ++ put (q_var s) ++ num (q_clause s) ++ [LF] ++
          List.concat (map quad_rows (q_list s))).

(** QuadraticEncode.cc:132-147 *)
Definition quad_word (s : quad) (w : text) : outcome quad :=
  let* g := sscanf fmt_eq w (q_regs s) in
  let* var := get (g_var g) in
  if var =? 0 then Ok (mkQuad g (q_clause s) (q_var s) (q_done s) (q_list s) (q_out s))
  else
    let* ch := get (g_ch g) in
    let* g := if Ascii.eqb ch "!" then sscanf fmt_ne w g else Ok g in
    let* var := get (g_var g) in
    let* val := get (g_val g) in
    Ok (mkQuad g (q_clause s) (q_var s) (q_done s) (q_list s)
          (q_out s ++ (if Ascii.eqb ch "!" then ["-"] else []) ++ atom_text var val ++ [SP])).

Definition quad_line (s : quad) (line : text) : outcome quad :=
  let b := cstr line in
  match b with
  | "c" :: _ => Ok s
  | "p" :: _ => quad_problem s b
  | "d" :: _ => quad_domain s b
  | _ =>
      let* s := foldM quad_word (line_words [] b) (quad_first s) in
      Ok (q_write s (txt "0" ++ [LF]))
  end.

Definition quadratic_encode (t : text) : outcome text :=
  let* s := foldM quad_line (getlines [] t) quad_start in Ok (q_out s).
