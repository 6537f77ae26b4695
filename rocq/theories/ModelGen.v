(** * The benchmark generators

    GenBenFin and GenBenBool (src/GenBenFunc.cc:25-249): from the parameters and the numbers
    returned by rand() to the text of the output file.  [rnd] is the list of the numbers that
    rand() returns, one after the other; srand(time(NULL)) at the start makes any list possible.
    If the list is used up the outcome is [OutOfFuel]: a call that does not return uses up every
    list.  Running out of memory is not modelled; a negative array size throws an exception. *)

From Coq Require Import Ascii String.
From Verif Require Import Spec Outcome State ModelBuild TextSpec ModelText ModelRead ModelCli ModelEncode.
#[local] Open Scope Z_scope.

Definition rnd := list Z.

(** rand() % n *)
Definition rand_mod (n : Z) (r : rnd) : outcome (Z * rnd) :=
  match r with
  | [] => OutOfFuel
  | x :: r' => if n =? 0 then Undef DivZero else Ok (Z.rem x n, r')
  end.

(** [for(...) a[x] = ...]: the values stored, in order. *)
Fixpoint draws {A B} (f : A -> rnd -> outcome (B * rnd)) (l : list A) (r : rnd) : outcome (list B * rnd) :=
  match l with
  | [] => Ok ([], r)
  | x :: l' =>
      let* q := f x r in let (b, r) := q in
      let* q := draws f l' r in let (bs, r) := q in
      Ok (b :: bs, r)
  end.

(** The same when the step depends on the values stored before it. *)
Fixpoint draws_after {A B} (f : list B -> A -> rnd -> outcome (B * rnd)) (before : list B) (l : list A) (r : rnd)
  : outcome (list B * rnd) :=
  match l with
  | [] => Ok (before, r)
  | x :: l' => let* q := f before x r in let (b, r) := q in draws_after f (before ++ [b]) l' r
  end.

(** [new T[n]] *)
Definition new_array (n : Z) : outcome unit := if n <? 0 then Undef BadAlloc else Ok tt.

(** [a[i]] *)
Definition read_at {A} (a : list A) (i : Z) : outcome A :=
  if i <? 0 then Undef OobAtom
  else match nth_error a (Z.to_nat i) with Some x => Ok x | None => Undef OobAtom end.

(** The do-while loop at GenBenFunc.cc:91-106 (and, with [off] = 1, 205-220): as long as [v]
    is among the earlier entries, take rand() % n + off instead. *)
Fixpoint redraw (n off : Z) (before : list Z) (v : Z) (r : rnd) : outcome (Z * rnd) :=
  if existsb (Z.eqb v) before then
    match r with
    | [] => OutOfFuel
    | x :: r' => if n =? 0 then Undef DivZero else redraw n off before (Z.rem x n + off) r'
    end
  else Ok (v, r).

(** ** GenBenFin *)

(** GenBenFunc.cc:43-61 *)
Definition fin_domains (c : cline) (r : rnd) : outcome (list Z * rnd) :=
  if c_drand c then draws (fun _ => rand_mod (c_domain c)) (loop 0 (c_num_var c)) r
  else Ok (map (fun _ => c_domain c) (loop 0 (c_num_var c)), r).

(** GenBenFunc.cc:76-108; a literal is a pair of a variable (from 0) and a value. *)
Definition fin_lit (c : cline) (doms soln : list Z) (before : list (Z * Z)) (x : Z) (r : rnd)
  : outcome ((Z * Z) * rnd) :=
  if c_sat c && (x =? 0) then
    let* q := rand_mod (c_num_var c) r in let (v, r) := q in
    let* d := read_at soln v in
    Ok ((v, d), r)
  else
    let* q := rand_mod (c_num_var c) r in let (v, r) := q in
    let* q := redraw (c_num_var c) 0 (map fst before) v r in let (v, r) := q in
    let* n := read_at doms v in
    let* q := rand_mod n r in let (d, r) := q in
    Ok ((v, d), r).

(** GenBenFunc.cc:74-109 *)
Definition fin_clause (c : cline) (doms soln : list Z) (r : rnd) : outcome (list (Z * Z) * rnd) :=
  draws_after (fin_lit c doms soln) [] (loop 0 (c_clause_size c)) r.

(** GenBenFunc.cc:125-137 *)
Definition fin_clause_text (cl : list (Z * Z)) : text :=
  List.concat (map (fun l => num (fst l + 1) ++ txt "=" ++ num (snd l) ++ txt " ") cl) ++ txt "0" ++ [LF].
Definition fin_text (c : cline) (doms : list Z) (cls : list (list (Z * Z))) : text :=
  txt "p cnf " ++ num (c_num_var c) ++ txt " " ++ num (c_num_clause c) ++ [LF] ++
  List.concat (map (fun q => txt "d " ++ num (fst q + 1) ++ txt " " ++ num (snd q) ++ [LF])
                   (combine (loop 0 (c_num_var c)) doms)) ++
  List.concat (map fin_clause_text cls).

(** The order of the allocations at GenBenFunc.cc:35-41 is immaterial. *)
Definition gen_fin (c : cline) (r : rnd) : outcome text :=
  let* _ := new_array (c_num_var c) in
  let* _ := new_array (c_num_clause c) in
  let* _ := (if 0 <? c_num_clause c then new_array (c_clause_size c) else Ok tt) in
  let* q := fin_domains c r in let (doms, r) := q in
  let* q := draws (fun n => rand_mod n) doms r in let (soln, r) := q in
  let* q := draws (fun _ => fin_clause c doms soln) (loop 0 (c_num_clause c)) r in let (cls, r) := q in
  Ok (fin_text c doms cls).

(** ** GenBenBool *)

(** GenBenFunc.cc:163-169 *)
Definition bool_value (x : Z) (r : rnd) : outcome (Z * rnd) :=
  let* q := rand_mod 2 r in let (b, r) := q in
  Ok (if b =? 0 then - x else x, r).

(** GenBenFunc.cc:177-221.  [soln] holds BSOLN[1], BSOLN[2], ...; BSOLN[0] is never read when
    NUM_VAR is positive, and for NUM_VAR = -1 the array is empty. *)
Definition bool_lit (c : cline) (soln : list Z) (before : list Z) (x : Z) (r : rnd) : outcome (Z * rnd) :=
  let* q := rand_mod 2 r in let (b, r) := q in
  let* q := rand_mod (c_num_var c) r in let (i, r) := q in
  if c_sat c && (x =? 0) then
    let* v := read_at soln i in
    Ok (if b =? 0 then - v else v, r)
  else
    redraw (c_num_var c) 1 before (if b =? 0 then - (i + 1) else i + 1) r.

Definition bool_clause (c : cline) (soln : list Z) (r : rnd) : outcome (list Z * rnd) :=
  draws_after (bool_lit c soln) [] (loop 0 (c_clause_size c)) r.

(** GenBenFunc.cc:238-246 *)
Definition bool_clause_text (cl : list Z) : text :=
  List.concat (map (fun v => num v ++ txt " ") cl) ++ txt "0" ++ [LF].
Definition bool_text (c : cline) (cls : list (list Z)) : text :=
  txt "p cnf " ++ num (c_num_var c) ++ txt " " ++ num (c_num_clause c) ++ [LF] ++
  List.concat (map bool_clause_text cls).

Definition gen_bool (c : cline) (r : rnd) : outcome text :=
  let* n := i32 (c_num_var c + 1) in
  let* _ := new_array n in
  let* _ := new_array (c_num_clause c) in
  let* _ := (if 0 <? c_num_clause c then new_array (c_clause_size c) else Ok tt) in
  let* q := draws bool_value (loop 1 n) r in let (soln, r) := q in
  let* q := draws (fun _ => bool_clause c soln) (loop 0 (c_num_clause c)) r in let (cls, r) := q in
  Ok (bool_text c cls).
