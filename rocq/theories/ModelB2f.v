(** * Boolean2Finite

    Boolean2Finite (src/Boolean2Finite.cc:14-150): from the text of the input file to the text of
    the output file.  [line_num] is never used.  The number of lines is assumed to fit in an int
    ([ovsize], [uvsize]). *)

From Coq Require Import Ascii String.
From Verif Require Import Spec Outcome TextSpec ModelText ModelEncode.
#[local] Open Scope char_scope.
#[local] Open Scope Z_scope.

(** [b_vars]: the set<int>, as the increasing list of its elements. *)
Record b2f := mkB2f { b_vars : list Z; b_data : list (list Z); b_out : text }.

(** set<int>::insert *)
Fixpoint set_insert (x : Z) (s : list Z) : list Z :=
  match s with
  | [] => [x]
  | y :: s' => if x <? y then x :: s else if x =? y then s else y :: set_insert x s'
  end.

(** One word, Boolean2Finite.cc:85-110; abs of the smallest int is undefined behaviour. *)
Definition b2f_word (x : list Z * list Z) (w : text) : outcome (list Z * list Z) :=
  let (vars, temp) := x in
  let* variable := atoi w in
  let* a := i32 (Z.abs variable) in
  Ok (set_insert a vars, if variable =? 0 then temp else temp ++ [variable]).

(** One line, Boolean2Finite.cc:52-113. *)
Definition b2f_line (s : b2f) (line : text) : outcome b2f :=
  let b := cstr line in
  match b with
  | "c" :: _ | "p" :: _ => Ok (mkB2f (b_vars s) (b_data s) (b_out s ++ b ++ [LF]))
  | _ =>
      let* x := foldM b2f_word (line_words [] b) (b_vars s, []) in
      let (vars, temp) := x in
      Ok (mkB2f vars (b_data s ++ [temp]) (b_out s))
  end.

(** The domain lines, Boolean2Finite.cc:117-124: all elements of the set but the first;
    decrementing the end of an empty set is undefined behaviour. *)
Definition b2f_domains (vars : list Z) : outcome text :=
  match vars with
  | [] => Undef BadIter
  | _ :: rest => Ok (List.concat (map (fun v => txt "d " ++ num v ++ txt " 2" ++ [LF]) rest))
  end.

(** The clause lines, Boolean2Finite.cc:126-146. *)
Definition b2f_clause (c : list Z) : text :=
  List.concat (map (fun var => if var <? 0 then num (- var) ++ txt "=0 " else num var ++ txt "=1 ") c) ++ [LF].

Definition boolean2finite (t : text) : outcome text :=
  let* s := foldM b2f_line (getlines [] t) (mkB2f [] [] []) in
  let* d := b2f_domains (b_vars s) in
  Ok (b_out s ++ d ++ List.concat (map b2f_clause (b_data s))).
