(** * Specification of the options of -solvenc and -solvech

    The options as the help text and README.md list them (and those the code knows in addition),
    independent of how the program reads them. *)

From Coq Require Import Ascii String.
From Verif Require Import Spec TextSpec.
#[local] Open Scope Z_scope.

Inductive opt :=
| OFile (f : text) | OTime (n : Z) | ORestart (n : Z)
| OWl | OVsids | OVsidsPos | OLazy | OVerbose | OModel
| OModelFile (f : text)
| OVar (n : Z) | OClause (n : Z) | OClauseSize (n : Z)
| OWord (w : text).   (* any other word *)

Definition opt_text (o : opt) : list text :=
  match o with
  | OFile f => [txt "-file"; f]
  | OTime n => [txt "-time"; num n]
  | ORestart n => [txt "-restart"; num n]
  | OWl => [txt "-wl"]
  | OVsids => [txt "-vsids"]
  | OVsidsPos => [txt "-vsids_pos"]
  | OLazy => [txt "-lazy"]
  | OVerbose => [txt "-verbose"]
  | OModel => [txt "-model"]
  | OModelFile f => [txt "-model"; f]
  | OVar n => [txt "-var"; num n]
  | OClause n => [txt "-clause"; num n]
  | OClauseSize n => [txt "-clausesize"; num n]
  | OWord w => [w]
  end.

Definition args_of (os : list opt) : list text := List.concat (map opt_text os).

Definition an_int (z : Z) : Prop := -2147483648 <= z <= 2147483647.

(** The options -solvenc knows. *)
Definition nc_words : list text :=
  map txt ["-restart"; "-verbose"; "-wl"; "-vsids"; "-vsids_pos"; "-lazy"; "-model"; "-var"; "-clause";
           "-clausesize"; "-file"; "-time"]%string.
Definition nc_option (o : opt) : Prop :=
  match o with
  | OModelFile _ => False
  | OTime n | ORestart n | OVar n | OClause n | OClauseSize n => an_int n
  | OWord w => ~ In w nc_words
  | _ => True
  end.

(** The options -solvech knows. *)
Definition ch_words : list text :=
  map txt ["-var"; "-clause"; "-clausesize"; "-file"; "-model"; "-time"; "-lazy"; "-verbose"]%string.
Definition ch_option (o : opt) : Prop :=
  match o with
  | OTime n | OVar n | OClause n | OClauseSize n => an_int n
  | OFile _ | OModelFile _ | OLazy | OVerbose => True
  | OWord w => ~ In w ch_words
  | _ => False
  end.

(** The last option that gives a value, or the default. *)
Fixpoint latest {A} (sel : opt -> option A) (os : list opt) (default : A) : A :=
  match os with
  | [] => default
  | o :: os' => latest sel os' (match sel o with Some a => a | None => default end)
  end.

Definition sel_file (o : opt) := match o with OFile f => Some (Some f) | _ => None end.
Definition sel_time (o : opt) := match o with OTime n => Some n | _ => None end.
Definition sel_restart (o : opt) := match o with ORestart n => Some n | _ => None end.
Definition sel_wl (o : opt) := match o with OWl => Some true | _ => None end.
Definition sel_size (o : opt) := match o with OClauseSize n => Some n | _ => None end.
Definition sel_verbose (o : opt) := match o with OVerbose => Some true | _ => None end.

(** The subject of an option: what at most one option of a command line should be about. *)
Inductive subject := SFile | STime | SRestart | SWl | SHeuristic | SVerbose | SModel | SVar | SClause | SSize | SWord (w : text).
Definition about (o : opt) : subject :=
  match o with
  | OFile _ => SFile | OTime _ => STime | ORestart _ => SRestart | OWl => SWl
  | OVsids | OVsidsPos | OLazy => SHeuristic
  | OVerbose => SVerbose | OModel | OModelFile _ => SModel
  | OVar _ => SVar | OClause _ => SClause | OClauseSize _ => SSize | OWord w => SWord w
  end.

(** ** Numbers on the command line

    The value of a word: leading white space, an optional sign and digits count, whatever follows;
    a word that does not start this way has the value 0. *)
Definition digit_char (d : nat) : ascii := ascii_of_nat (48 + d).
Definition a_digit (a : ascii) : Prop := exists d, (d <= 9)%nat /\ a = digit_char d.
Definition space_char (a : ascii) : Prop := In (nat_of_ascii a) [9; 10; 11; 12; 13; 32]%nat.
Definition of_digits (ds : list nat) : Z := fold_left (fun z d => 10 * z + Z.of_nat d) ds 0.

Definition text_dec : forall x y : text, {x = y} + {x <> y} := list_eq_dec ascii_dec.

Inductive value_of : text -> Z -> Prop :=
| VNumber sp sg ds junk : Forall space_char sp -> In sg [txt ""; txt "+"; txt "-"] ->
    ds <> [] -> Forall (fun d => d <= 9)%nat ds -> (forall a r, junk = a :: r -> ~ a_digit a) ->
    value_of (sp ++ sg ++ map digit_char ds ++ junk) (if text_dec sg (txt "-") then - of_digits ds else of_digits ds)
| VNothing sp sg junk : Forall space_char sp -> In sg [txt ""; txt "+"; txt "-"] ->
    (forall a r, junk = a :: r -> ~ a_digit a /\ (sg = [] -> ~ space_char a /\ a <> "+"%char /\ a <> "-"%char)) ->
    value_of (sp ++ sg ++ junk) 0.
