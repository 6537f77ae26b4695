(** * The C and C++ library functions used on texts

    Models of istream::getline, sscanf, atoi and of the word splitting loop that Formula.cc,
    LinearEncode.cc, QuadraticEncode.cc and Boolean2Finite.cc share.  A character buffer holding
    a C string is modelled as the list of its characters before the terminating NUL. *)

From Coq Require Import Ascii String.
From Verif Require Import Spec Outcome TextSpec.
#[local] Open Scope char_scope.
#[local] Open Scope Z_scope.

Definition NUL : ascii := "000".

(** isspace in the C locale. *)
Definition isspace (a : ascii) : bool :=
  let n := nat_of_ascii a in (Nat.leb 9 n && Nat.leb n 13) || Nat.eqb n 32.

Definition digit (a : ascii) : option Z :=
  let n := nat_of_ascii a in
  if Nat.leb 48 n && Nat.leb n 57 then Some (Z.of_nat n - 48) else None.

Definition in_int (z : Z) : bool := (-2147483648 <=? z) && (z <=? 2147483647).

(** [while (infile.getline(line_buffer, 3000))] (Formula.cc:96, LinearEncode.cc:60,
    QuadraticEncode.cc:66, Boolean2Finite.cc:50): the lines it delivers.  [cur] is the part of
    the current line already extracted, in reverse.  A line of 2999 characters still fits; a
    longer one sets failbit, which ends the loop.  A last line without line feed is delivered
    unless it is empty. *)
Fixpoint getlines (cur : text) (t : text) : list text :=
  match t with
  | [] => match cur with
          | [] => []
          | _ => if Z.of_nat (length cur) <=? 2999 then [rev cur] else []
          end
  | a :: t' =>
      if Ascii.eqb a LF then
        if Z.of_nat (length cur) <=? 2999 then rev cur :: getlines [] t' else []
      else getlines (a :: cur) t'
  end.

(** The C string in the buffer: a NUL in the line ends it. *)
Fixpoint cstr (l : text) : text :=
  match l with
  | [] => []
  | a :: l' => if Ascii.eqb a NUL then [] else a :: cstr l'
  end.

Fixpoint skip_space (t : text) : text :=
  match t with
  | a :: t' => if isspace a then skip_space t' else t
  | [] => []
  end.

(** The digits at the start of a text, their value appended to [acc]. *)
Fixpoint scan_digits (acc : Z) (t : text) : Z * text :=
  match t with
  | a :: t' => match digit a with Some d => scan_digits (10 * acc + d) t' | None => (acc, t) end
  | [] => (acc, [])
  end.

Definition scan_nat (t : text) : option (Z * text) :=
  match t with
  | a :: _ => match digit a with Some _ => Some (scan_digits 0 t) | None => None end
  | [] => None
  end.

(** An optional sign and at least one digit. *)
Definition scan_int (t : text) : option (Z * text) :=
  match t with
  | "-" :: t' => match scan_nat t' with Some (z, r) => Some (- z, r) | None => None end
  | "+" :: t' => scan_nat t'
  | _ => scan_nat t
  end.

(** ** sscanf *)

(** The variables the conversions write to: [var], [val] and [ch] ([ch1] is written but never
    read and is not modelled).  [None]: not initialised. *)
Record regs := mkRegs { g_var : option Z; g_val : option Z; g_ch : option ascii }.
Definition no_regs : regs := mkRegs None None None.

Inductive directive :=
| DVar          (* %d into var *)
| DVal          (* %d into val *)
| DCh           (* %c into ch *)
| DCh1          (* %c into ch1 *)
| DSpace        (* white space: skips any amount of white space *)
| DLit (a : ascii). (* an ordinary character: must match *)

(** sscanf stops at the first directive that fails; the variables of the directives from there
    on keep their values.  A number outside the range of int is undefined behaviour (C11
    7.21.6.2p10). *)
Fixpoint sscanf (f : list directive) (t : text) (g : regs) : outcome regs :=
  match f with
  | [] => Ok g
  | DSpace :: f' => sscanf f' (skip_space t) g
  | DLit a :: f' =>
      match t with
      | b :: t' => if Ascii.eqb a b then sscanf f' t' g else Ok g
      | [] => Ok g
      end
  | DCh :: f' =>
      match t with
      | b :: t' => sscanf f' t' (mkRegs (g_var g) (g_val g) (Some b))
      | [] => Ok g
      end
  | DCh1 :: f' => match t with _ :: t' => sscanf f' t' g | [] => Ok g end
  | DVar :: f' =>
      match scan_int (skip_space t) with
      | Some (z, t') => if in_int z then sscanf f' t' (mkRegs (Some z) (g_val g) (g_ch g)) else Undef BadScan
      | None => Ok g
      end
  | DVal :: f' =>
      match scan_int (skip_space t) with
      | Some (z, t') => if in_int z then sscanf f' t' (mkRegs (g_var g) (Some z) (g_ch g)) else Undef BadScan
      | None => Ok g
      end
  end.

(** "p cnf %d %d" *)
Definition fmt_p : list directive :=
  [DLit "p"; DSpace; DLit "c"; DLit "n"; DLit "f"; DSpace; DVar; DSpace; DVal].
(** "d %d %d" *)
Definition fmt_d : list directive := [DLit "d"; DSpace; DVar; DSpace; DVal].
(** "%d %c %d" *)
Definition fmt_eq : list directive := [DVar; DSpace; DCh; DSpace; DVal].
(** "%d %c %c %d" *)
Definition fmt_ne : list directive := [DVar; DSpace; DCh; DSpace; DCh1; DSpace; DVal].

(** Reading a variable that was never written is undefined behaviour. *)
Definition get {A} (x : option A) : outcome A :=
  match x with Some a => Ok a | None => Undef Uninit end.

(** ** The loop over the words of a line

    Formula.cc:121-134 (also LinearEncode.cc:146-160, QuadraticEncode.cc:116-130,
    Boolean2Finite.cc:71-85): the words that reach the test [strlen(word_buffer) != 0] and pass
    it.  The three loops in sequence are: skip blanks, copy up to a blank or the end, repeat
    while characters are left; [cur] is the word being copied.  The test for a line feed in the
    code is never true, since getline removes it (and the do loop would not end). *)
Fixpoint line_words (cur : text) (t : text) : list text :=
  match t with
  | [] => match cur with [] => [] | _ => [rev cur] end
  | a :: t' =>
      if Ascii.eqb a " " || Ascii.eqb a "009" then
        match cur with
        | [] => line_words [] t'
        | _ => rev cur :: line_words [] t'
        end
      else line_words (a :: cur) t'
  end.

(** ** atoi (7.22.1.2): like strtol in base 10; the value is undefined behaviour if it does not
    fit in an int. *)
Definition atoi (t : text) : outcome Z :=
  match scan_int (skip_space t) with
  | Some (z, _) => if in_int z then Ok z else Undef BadScan
  | None => Ok 0
  end.
