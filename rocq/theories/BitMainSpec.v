(** * Specification of what the program of the second solver reads and writes *)

From Coq Require Import Ascii String.
From Verif Require Import Spec TextSpec CliSpec MainSpec ModelMenu ModelBitMain.
#[local] Open Scope Z_scope.

(** ** Sets of values *)

(** The line of a variable: its number and one digit for each of the values 63, ..., 0. *)
Definition set_row (v : Z) (S : Z -> bool) : text :=
  num v ++ txt "=" ++ map (fun d => if S (Z.of_nat d) then "1"%char else "0"%char) (rev (seq 0 64)).

(** The sets of the variables 0, ..., n, followed by the outcome of the self-check. *)
Definition sets_lines (verbose : bool) (n : Z) (S : Z -> Z -> bool) : list text :=
  txt "The model: " :: map (fun v => set_row (Z.of_nat v) (S (Z.of_nat v))) (seq 0 (1 + Z.to_nat n)) ++
  (if verbose then [[]] else []) ++ [txt "Verifying model ... model is CORRECT"].

(** Every way to pick values from the sets of the variables gives a model. *)
Definition sets_good (p : problem) (S : Z -> Z -> bool) : Prop :=
  forall a, (forall v, 1 <= v <= nvars p -> S v (a v) = true) -> is_model p a.

(** The word, and the lines after the statistics, are right for the problem [p].  Only values of
    the domains belong to the sets, and there is no variable 0. *)
Inductive right_sets (p : problem) (verbose : bool) (late : nat -> bool) : text -> list text -> Prop :=
| QSat S : sets_good p S -> (forall v, 1 <= v <= nvars p -> exists d, S v d = true) ->
    (forall v d, 0 <= v <= nvars p -> S v d = true -> v <> 0 /\ 0 <= d < domsize p v) ->
    right_sets p verbose late (txt "SAT") (sets_lines verbose (nvars p) S)
| QUnsat : ~ satisfiable p -> right_sets p verbose late (txt "UNSAT") []
| QTimeout k : late k = true -> right_sets p verbose late (txt "TIMEOUT") [].

(** ** Options *)

(** The options the second solver knows; -lazy and -vsids_pos of the first solver are ignored. *)
Definition bit_words : list text :=
  map txt ["-restart"; "-verbose"; "-wl"; "-vsids"; "-model"; "-var"; "-clause"; "-clausesize"; "-file"; "-time"]%string.
Definition bit_option (o : opt) : Prop :=
  match o with
  | OModelFile _ => False
  | OTime n | ORestart n | OVar n | OClause n | OClauseSize n => an_int n
  | OWord w => ~ In w bit_words
  | _ => True
  end.
Definition sel_vsids (o : opt) := match o with OVsids => Some true | _ => None end.

(** ** The menu *)
Definition bpage (k : Z) : text :=
  bmenu_text ++ LF :: (if k =? 0 then bmenu_0 else if k =? 1 then bmenu_1 else []).

(** The menu is shown unless -solvenc is the first argument. *)
Definition asks_menu (args : list text) : Prop := forall rest, args <> txt "-solvenc" :: rest.
