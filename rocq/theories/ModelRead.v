(** * Reading a problem file

    Formula::BuildFormula (src/Formula.cc:63-214), the scanning part: from the text of the file
    to the sequence of domain and clause lines that ModelBuild.v turns into the theory.
    Scanning a line and entering it into the theory are interleaved in the code; here the whole
    file is scanned first.  This changes nothing but which undefined behaviour is reported when
    there are several. *)

From Coq Require Import Ascii String.
From Verif Require Import Spec Outcome TextSpec State ModelBuild ModelText.
#[local] Open Scope char_scope.
#[local] Open Scope Z_scope.

(** One word of a clause line, Formula.cc:136-150: [var], [ch], [val] keep the values of earlier
    words if the conversion stops early.  Returns the literal, or [None] for var = 0. *)
Definition read_word (g : regs) (w : text) : outcome (regs * option lit) :=
  let* g := sscanf fmt_eq w g in
  let* ch := get (g_ch g) in
  let* g := if Ascii.eqb ch "!" then sscanf fmt_ne w g else Ok g in
  let* var := get (g_var g) in
  if var =? 0 then Ok (g, None)
  else
    let* ch := get (g_ch g) in
    let* val := get (g_val g) in
    Ok (g, Some (mkLit var val (Ascii.eqb ch "="))).

(** The words of a clause line, Formula.cc:119-185. *)
Fixpoint read_words (g : regs) (ws : list text) : outcome (regs * clause) :=
  match ws with
  | [] => Ok (g, [])
  | w :: ws' =>
      let* x := read_word g w in
      let (g, l) := x in
      let* y := read_words g ws' in
      let (g, ls) := y in
      Ok (g, match l with Some l => l :: ls | None => ls end)
  end.

(** One line, Formula.cc:98-208. *)
Definition read_line (g : regs) (line : text) : outcome (regs * option item) :=
  let b := cstr line in
  match b with
  | "c" :: _ => Ok (g, None)
  | "p" :: _ => let* g := sscanf fmt_p b g in Ok (g, None)
  | "d" :: _ =>
      let* g := sscanf fmt_d b g in
      do* get (g_var g) in
      let* val := get (g_val g) in
      Ok (g, Some (IDom val))
  | _ =>
      let* x := read_words g (line_words [] b) in
      let (g, ls) := x in
      Ok (g, Some (ICls ls))
  end.

Fixpoint read_lines (g : regs) (ls : list text) : outcome (list item) :=
  match ls with
  | [] => Ok []
  | l :: ls' =>
      let* x := read_line g l in
      let (g, i) := x in
      let* is := read_lines g ls' in
      Ok (match i with Some i => i :: is | None => is end)
  end.

(** The whole file.  The local variables start uninitialised (Formula.cc:70-72). *)
Definition read_file (t : text) : outcome (list item) := read_lines no_regs (getlines [] t).

(** BuildFormula. *)
Definition build_file (c : cfg) (t : text) : outcome state :=
  let* is := read_file t in build c is.

(** SolveFinite on a file. *)
Definition solve_file (fuel : nat) (m : mode) (c : cfg) (clk : nat -> bool) (r : Z) (t : text)
  : outcome (report * state) :=
  let* s := build_file c t in solve_state fuel m c clk r s.
