(** * Theorems about the generators

    [gen_fin c r] and [gen_bool c r] are the contents of the output files of GenBenFin and
    GenBenBool for the options [c] and the numbers [r] returned by rand().  [OutOfFuel] means
    that the list [r] was used up. *)

From Coq Require Import Ascii String.
From Verif Require Import Spec Outcome State ModelBuild ModelSearch Observe Cases TextSpec ModelText ModelRead ModelCli
  EncodeSpec ModelEncode ModelGen Text Read Encode EncodeMore FileUnique Gen GenFin GenText GenBool FileCases ConvertCases.
#[local] Open Scope Z_scope.

(** The problem of a file is determined by its text, so the theorems below are about the file. *)
Theorem C23_unique p p' t : readable p t -> readable p' t -> p = p'.
Proof. apply readable_unique. Qed.
Print Assumptions C23_unique.

(** ** C35: -genben -bool 1 -sat 1 *)

Theorem C35_satisfiable c r t : (forall x, In x r -> 0 <= x) -> (c_drand c = false -> 1 <= c_domain c) ->
  c_sat c = true -> 1 <= c_clause_size c -> gen_fin c r = Ok t ->
  exists p, documented_as (txt "cnf") p t /\ satisfiable p.
Proof.
  intros N HD HS HC E. destruct (gen_fin_generated c r t N HD E) as (p & D & G). exists p. split; auto. apply (g_sat _ _ G); auto.
Qed.
Print Assumptions C35_satisfiable.

(** ** C36: the shape of the generated problem *)

Theorem C36_shape c r t : (forall x, In x r -> 0 <= x) -> (c_drand c = false -> 1 <= c_domain c) -> gen_fin c r = Ok t ->
  exists p, documented_as (txt "cnf") p t /\ nvars p = c_num_var c /\ Z.of_nat (length (clauses p)) = c_num_clause c /\
    (forall cl, In cl (clauses p) ->
       Z.of_nat (length cl) = c_clause_size c /\ NoDup (map lvar cl) /\ forall l, In l cl -> wf_lit p l /\ leq l = true) /\
    (forall d, In d (doms p) -> if c_drand c then 1 <= d < Z.abs (c_domain c) else d = c_domain c).
Proof.
  intros N HD E. destruct (gen_fin_generated c r t N HD E) as (p & D & [G1 G2 G3 G4 G5 _]). exists p.
  split; [exact D|]. split; [exact G1|]. split; [exact G2|]. split; [exact G3|]. destruct (c_drand c); auto.
Qed.
Print Assumptions C36_shape.

(** If every clause can be filled then there is no undefined behaviour, and however long the
    generation has been running, some further numbers finish it. *)
Theorem C36_finishes c r : (forall x, In x r -> 0 <= x) -> c_drand c = false -> 1 <= c_domain c ->
  0 <= c_num_var c -> 0 <= c_num_clause c -> 0 <= c_clause_size c <= c_num_var c ->
  (exists t, gen_fin c r = Ok t) \/
  (gen_fin c r = OutOfFuel /\ exists r' t, (forall x, In x r' -> 0 <= x) /\ gen_fin c (r ++ r') = Ok t).
Proof. intros. apply gen_fin_live; auto; [unfold fin_alloc; intuition|intros; lia]. Qed.
Print Assumptions C36_finishes.

(** With more literals per clause than variables it never finishes. *)
Theorem C36_never_finishes c r t : (forall x, In x r -> 0 <= x) -> (c_drand c = false -> 1 <= c_domain c) ->
  0 < c_num_clause c -> c_num_var c < c_clause_size c -> gen_fin c r <> Ok t.
Proof. apply gen_fin_stuck. Qed.
Print Assumptions C36_never_finishes.

Definition genben (args : list string) : cline :=
  match dispatch (txt "-genben" :: map txt args) with Ok (GenBenFin c) | Ok (GenBenBool c) => c | _ => default_cline end.
Definition gen_case : cline := genben ["-var"; "3"; "-clause"; "3"; "-clausesize"; "2"; "-domain"; "3"; "-bool"; "1"]%string.
Example C35_case : (c_drand gen_case = false /\ c_domain gen_case = 3 /\ c_sat gen_case = true /\ c_clause_size gen_case = 2) /\
  gen_fin gen_case [1; 2; 0; 0; 0; 1; 1; 7; 8; 8; 1; 1; 2; 2; 4] =
    Ok (unlines (map txt ["p cnf 3 3"; "d 1 3"; "d 2 3"; "d 3 3"; "1=1 2=1 0"; "2=2 3=2 0"; "2=2 3=2 0"]%string)).
Proof. vm_compute. repeat split; reflexivity. Qed.

(** With -drand 1 a domain can be empty: division by zero. *)
Theorem C36_drand_refuted : exists c r, c_drand c = true /\ c_domain c = 10 /\ c_num_var c = 5 /\ c_num_clause c = 7 /\ c_clause_size c = 3 /\
  (forall x, In x r -> 0 <= x) /\ gen_fin c r = Undef DivZero.
Proof.
  exists (genben ["-bool"; "1"; "-var"; "5"; "-clause"; "7"; "-drand"; "1"]%string), [4; 8; 20; 3; 1; 5; 5; 5].
  repeat (split; [reflexivity|]). split; [|vm_compute; reflexivity].
  intros x Hx. cbn in Hx. intuition lia.
Qed.
Print Assumptions C36_drand_refuted.

(** ** C37: -genben -bool 0 *)

Theorem C37_shape c r t : (forall x, In x r -> 0 <= x) -> 0 <= c_num_var c -> gen_bool c r = Ok t ->
  exists f, dimacs (c_num_var c) (c_num_clause c) f t /\ bool_file (c_num_var c) f t /\ Z.of_nat (length f) = c_num_clause c /\
    forall cl, In cl f -> Z.of_nat (length cl) = c_clause_size c /\ NoDup cl /\ forall z, In z cl -> 1 <= Z.abs z <= c_num_var c.
Proof. apply gen_bool_shape. Qed.
Print Assumptions C37_shape.

Theorem C37_finishes c r : (forall x, In x r -> 0 <= x) ->
  0 <= c_num_var c < int_max -> 0 <= c_num_clause c -> 0 <= c_clause_size c <= c_num_var c ->
  (exists t, gen_bool c r = Ok t) \/
  (gen_bool c r = OutOfFuel /\ exists r' t, (forall x, In x r' -> 0 <= x) /\ gen_bool c (r ++ r') = Ok t).
Proof. intros. apply gen_bool_live; auto. Qed.
Print Assumptions C37_finishes.

Theorem C37_never_finishes c r t : (forall x, In x r -> 0 <= x) -> 0 <= c_num_var c ->
  0 < c_num_clause c -> 2 * c_num_var c < c_clause_size c -> gen_bool c r <> Ok t.
Proof. apply gen_bool_stuck. Qed.
Print Assumptions C37_never_finishes.

(** With -sat 1 the clauses need not be satisfiable. *)
Theorem C37_satisfiable_refuted : exists c r t f, c_sat c = true /\ 1 <= c_clause_size c <= c_num_var c /\
  (forall x, In x r -> 0 <= x) /\ gen_bool c r = Ok t /\ dimacs (c_num_var c) (c_num_clause c) f t /\ forall b, ~ cnf_holds b f.
Proof.
  exists (genben ["-var"; "1"; "-clause"; "2"; "-clausesize"; "1"; "-sat"; "1"]%string), [1; 1; 0; 0; 0]. eexists _, [[1]; [-1]].
  split; [reflexivity|]. split; [vm_compute; split; discriminate|]. split; [intros x Hx; cbn in Hx; intuition lia|].
  split; [vm_compute; reflexivity|]. split.
  - exists (txt "p cnf 1 2"), [txt "1 0"; txt "-1 0"]. split; [split; [apply no_lf_ok; reflexivity|left; reflexivity]|].
    split; [vm_compute; reflexivity|]. repeat constructor.
  - intros b H. destruct (H [1] (or_introl eq_refl)) as (z & [<-|[]] & H1).
    destruct (H [-1] (or_intror (or_introl eq_refl))) as (z & [<-|[]] & H2). cbn in H1, H2. congruence.
Qed.
Print Assumptions C37_satisfiable_refuted.

(** ** C38: generated files can be solved *)

(** If clauses have at most 136 literals then no line is too long, and the solver reads back the
    generated problem unless some domain has only one value. *)
Theorem C38_read_back c r t : (forall x, In x r -> 0 <= x) -> (c_drand c = false -> 1 <= c_domain c) -> Z.abs (c_domain c) <= int_max ->
  c_num_var c <= int_max -> c_num_clause c <= int_max -> c_clause_size c <= 136 -> gen_fin c r = Ok t ->
  exists p, documented p t /\ fits_int p /\ lines_below 3000 t /\
    ((forall d, In d (doms p) -> 2 <= d) -> 1 <= c_clause_size c -> wf p /\ no_repeats p /\
      forall fuel m cf clk k, solve_file fuel m cf clk k t = solve fuel m cf clk k p).
Proof.
  intros N H1 H2 H3 H4 H5 E. destruct (gen_fin_solve c r t N H1 H2 H3 H4 H5 E) as (p & _ & F & D & L & S). exists p. auto.
Qed.
Print Assumptions C38_read_back.

Example C38_case : (exists t, gen_fin gen_case [1; 2; 0; 0; 0; 1; 1; 7; 8; 8; 1; 1; 2; 2; 4] = Ok t /\
  verdict_of (solve_file 100 NonChrono (wl VSIDS) never 0 t) = Some (SAT, 0, Some true)).
Proof. eexists. split; [vm_compute; reflexivity|vm_compute; reflexivity]. Qed.

(** Longer clauses are not read back. *)
Definition gen_600 : cline := genben ["-bool"; "1"; "-var"; "600"; "-clause"; "1"; "-clausesize"; "600"]%string.
Definition rnd_600 : list Z := (loop 0 600 ++ [0] ++ List.concat (map (fun v => [v; 0]) (loop 1 600)))%list.
Definition holds_of {A} (o : outcome A) (f : A -> bool) : bool := match o with Ok x => f x | _ => false end.
Lemma holds_of_ok {A} (o : outcome A) f : holds_of o f = true -> exists x, o = Ok x /\ f x = true.
Proof. destruct o; simpl; try discriminate. eauto. Qed.
Theorem C38_long_clause_refuted : exists t s, gen_fin gen_600 rnd_600 = Ok t /\
  (forall p, documented_as (txt "cnf") p t -> length (clauses p) = 1%nat) /\
  build_file (nc BK) t = Ok s /\ cl s = [].
Proof.
  assert (N : forall x, In x rnd_600 -> 0 <= x).
  { assert (B : forallb (fun x => 0 <=? x) rnd_600 = true) by (vm_compute; reflexivity). rewrite forallb_forall in B. intros x Hx. specialize (B x Hx). lia. }
  assert (E : holds_of (gen_fin gen_600 rnd_600) (fun t => holds_of (build_file (nc BK) t) (fun s => match cl s with [] => true | _ => false end)) = true)
    by (vm_compute; reflexivity).
  destruct (holds_of_ok _ _ E) as (t & G & E1). clear E. destruct (holds_of_ok _ _ E1) as (s & B & E2). clear E1.
  exists t, s. split; [exact G|]. split; [|split; [exact B|clear -E2; destruct (cl s); [reflexivity|discriminate]]].
  intros p D. assert (HD : c_drand gen_600 = false -> 1 <= c_domain gen_600) by (intros _; vm_compute; discriminate).
  destruct (gen_fin_generated gen_600 rnd_600 t N HD G) as (p' & D' & [_ G2 _ _ _ _]).
  assert (p = p') as -> by (apply (readable_unique p p' t); apply documented_readable; left; auto).
  assert (E1 : c_num_clause gen_600 = 1) by (vm_compute; reflexivity). rewrite E1 in G2. clear -G2. lia.
Qed.
Print Assumptions C38_long_clause_refuted.
