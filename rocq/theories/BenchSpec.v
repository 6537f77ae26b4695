(** * Specification of the benchmark problems

    What the problems are about, independent of the programs that write them. *)

From Coq Require Import Ascii String.
From Verif Require Import Spec TextSpec ModelText.
#[local] Open Scope char_scope.
#[local] Open Scope Z_scope.

(** The problem has [n] variables with [d] values each, and its models are the assignments with
    the property [good]. *)
Definition describes (p : problem) (n d : Z) (good : assignment -> Prop) : Prop :=
  nvars p = n /\ (forall x, In x (doms p) -> x = d) /\
  forall a, is_model p a <-> (forall x, 1 <= x <= n -> 0 <= a x < d) /\ good a.

(** Any two of the variables [1 .. n] are related by [R]. *)
Definition pairwise (n : Z) (a : assignment) (R : Z -> Z -> Z -> Z -> Prop) : Prop :=
  forall x y, 1 <= x <= n -> 1 <= y <= n -> x <> y -> R x (a x) y (a y).

(** Pigeons in different holes. *)
Definition apart (x h y k : Z) : Prop := h <> k.

(** Pieces on the squares [(x, h)] and [(y, k)] of a chess board. *)
Definition queen_attacks (x h y k : Z) : Prop := x = y \/ h = k \/ Z.abs (x - y) = Z.abs (h - k).
Definition knight_attacks (x h y k : Z) : Prop :=
  Z.abs (x - y) = 1 /\ Z.abs (h - k) = 2 \/ Z.abs (x - y) = 2 /\ Z.abs (h - k) = 1.
Definition queens_apart (x h y k : Z) : Prop := ~ queen_attacks x h y k.
Definition amazons_apart (x h y k : Z) : Prop := ~ queen_attacks x h y k /\ ~ knight_attacks x h y k.

(** A Boolean board of [n] rows and [n] columns, numbered from 0: there is a queen in every row
    and in every column, and no two queens attack each other. *)
Definition queens_board (n : Z) (q : Z -> Z -> bool) : Prop :=
  (forall i, 0 <= i < n -> exists j, 0 <= j < n /\ q i j = true) /\
  (forall j, 0 <= j < n -> exists i, 0 <= i < n /\ q i j = true) /\
  (forall i j k l, 0 <= i < n -> 0 <= j < n -> 0 <= k < n -> 0 <= l < n -> q i j = true -> q k l = true ->
     (i, j) <> (k, l) -> ~ queen_attacks i j k l).

(** ** Graphs *)

(** A graph file in the DIMACS format: apart from comments, a line [p edge n m] or [p col n m],
    then the edges. *)
Definition edge_line (e : Z * Z) (l : text) : Prop :=
  starts "e" l /\ words l = [txt "e"; num (fst e); num (snd e)].
Definition graph_file (n m : Z) (es : list (Z * Z)) (t : text) : Prop :=
  exists f ls hd el, has_lines t ls /\ filter (fun l => negb (is_comment l)) ls = hd :: el /\
    starts "p" hd /\ (f = txt "edge" \/ f = txt "col") /\ words hd = [txt "p"; f; num n; num m] /\ Forall2 edge_line es el.

(** The ends of every edge have different colours. *)
Definition proper (es : list (Z * Z)) (a : assignment) : Prop := forall u v, In (u, v) es -> a u <> a v.

(** ** Tables of results *)

(** A row of the table: the seven statistics, each followed by a NUL and a blank. *)
Definition row (xs : list Z) : text := List.concat (map (fun x => num x ++ [NUL; SP]) xs).

(** Text without colons and without [T]. *)
Definition calm (t : text) : Prop := forall a, In a t -> a <> ":" /\ a <> "T".

(** Everything the theorems about the solver ask of a file and its problem. *)
Definition ready (p : problem) (t : text) : Prop :=
  wf p /\ no_repeats p /\ fits_int p /\ accepted p t /\ lines_below 3000 t.
