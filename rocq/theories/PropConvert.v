(** * Theorems about the conversion of Boolean problems

    [boolean2finite t] is the content of the output file of Boolean2Finite for an input file
    with the text [t]. *)

From Coq Require Import Ascii String.
From Verif Require Import Spec Outcome State ModelBuild ModelSearch Observe Cases TextSpec ModelText ModelRead
  EncodeSpec ModelEncode ModelB2f Text Read Encode EncodeMore B2f FileCases ConvertCases.
#[local] Open Scope Z_scope.

Theorem C33_file_unique t n f n' f' : bool_file n f t -> bool_file n' f' t -> n = n' /\ f = f'.
Proof. apply bool_file_unique. Qed.
Print Assumptions C33_file_unique.

Theorem C33_layout n f : bool_file n f (bool_layout n f).
Proof. apply bool_layout_file. Qed.
Print Assumptions C33_layout.

(** ** C33: the converted problem *)

(** The written file describes the same clauses over two-valued variables; if no line of the
    Boolean file has 1500 characters then the solver reads it back. *)
Theorem C33_convert n f t : bool_cnf n f -> f <> [] -> 0 <= n <= int_max -> Z.of_nat (length f) <= int_max ->
  bool_file n f t -> lines_below 3000 t ->
  exists t', boolean2finite t = Ok t' /\ readable (finite_of n f) t' /\
    (lines_below 1500 t -> forall fuel m c clk r, solve_file fuel m c clk r t' = solve fuel m c clk r (finite_of n f)).
Proof.
  intros B NE Hn Hf D LB. destruct (b2f_written n f t B NE Hn D LB) as (t' & E & R & L). exists t'. split; [exact E|]. split; [exact R|].
  intros LB' fuel m c clk r. apply solve_accepted; auto; [apply finite_wf; auto; lia|apply finite_fits; auto|apply readable_accepted; auto; apply finite_fits; auto].
Qed.
Print Assumptions C33_convert.

(** Its models are the models of the Boolean problem, with 1 for true and 0 for false. *)
Theorem C33_models n f : bool_cnf n f -> 0 <= n ->
  wf (finite_of n f) /\
  (forall a, is_model (finite_of n f) a <->
     (forall v, 1 <= v <= n -> a v = 0 \/ a v = 1) /\ cnf_holds (fun v => a v =? 1) f) /\
  (satisfiable (finite_of n f) <-> exists b, cnf_holds b f).
Proof.
  intros B Hn. split; [apply finite_wf; auto|]. split; [intro a; apply finite_models; auto|apply finite_sat; auto].
Qed.
Print Assumptions C33_models.

Example C33_case : bool_cnf 3 cnf_bool /\ bool_file 3 cnf_bool f_bool /\ lines_below 1500 f_bool /\
  boolean2finite f_bool = Ok (unlines (map txt
    ["c three variables"; "p cnf 3 3"; "c"; "d 1 2"; "d 2 2"; "d 3 2"; "1=1 2=0 "; "2=1 3=1 "; "3=0 1=0 2=1 "]%string)).
Proof. destruct f_bool_fine as (H1 & H2 & H3). split; [exact H1|]. split; [exact H2|]. split; [exact H3|]. vm_compute; reflexivity. Qed.

(** A longer clause can become a line of more than 3000 characters, at which the solver stops
    reading: SAT is reported, and confirmed by the self-check, for an unsatisfiable problem. *)
Theorem C33_long_clause_refuted :
  exists n f t t', bool_cnf n f /\ bool_file n f t /\ lines_below 3000 t /\
    (forall b, ~ cnf_holds b f) /\ boolean2finite t = Ok t' /\
    verdict_of (solve_file 50 NonChrono (nc BK) never 0 t') = Some (SAT, 0, Some true) /\
    verdict_of (solve_file 50 NonChrono (wl VSIDS) never 0 t') = Some (SAT, 0, Some true) /\
    verdict_of (solve_file 50 Chrono (nc BK) never 0 t') = Some (SAT, 0, Some true).
Proof.
  exists 1, cnf_800, f_800, f_800'. destruct f_800_fine as (H1 & H2).
  split; [apply bool_cnf_dec; vm_compute; reflexivity|]. split; [apply bool_layout_file|]. split; [exact H1|]. split; [apply cnf_800_unsat|]. split; [exact H2|].
  clear. split; [vm_compute; reflexivity|]. split; vm_compute; reflexivity.
Qed.
Print Assumptions C33_long_clause_refuted.

(** Without clauses the conversion is undefined behaviour. *)
Theorem C33_no_clauses n t : bool_file n [] t -> lines_below 3000 t -> boolean2finite t = Undef BadIter.
Proof. apply b2f_empty. Qed.
Print Assumptions C33_no_clauses.

(** ** C34: domain lines *)

(** If some word of a clause line is [0] then every variable of the written clauses has a
    domain line, whatever else the input contains. *)
Theorem C34_declared_partial t t' ls : has_lines t ls -> lines_below 3000 t -> ~ In NUL t -> boolean2finite t = Ok t' ->
  (exists l, In l ls /\ is_comment l = false /\ ~ starts "p" l /\ In (txt "0") (words l)) ->
  exists ks ds cs, has_lines t' (ks ++ ds ++ cs) /\
    (forall l, In l ks -> starts "c" l \/ starts "p" l) /\ (forall l, In l ds -> exists v, domain_line v 2 l) /\
    (forall l, In l cs -> clause_row l = true) /\
    (forall l w, In l cs -> In w (words l) -> exists v d x, w = lit_text (mkLit v d true) /\ (d = 0 \/ d = 1) /\ In x ds /\ domain_line v 2 x).
Proof. apply b2f_every_variable. Qed.
Print Assumptions C34_declared_partial.

Example C34_case : boolean2finite f_gap = Ok (unlines (map txt ["p cnf 3 2"; "d 1 2"; "d 3 2"; "1=1 3=1 "; "3=0 "]%string)).
Proof. vm_compute; reflexivity. Qed.

(** Without any [0] the smallest variable has no domain line. *)
Theorem C34_no_zero_refuted :
  exists t, boolean2finite t = Ok (unlines (map txt ["p cnf 2 1"; "d 2 2"; "1=1 2=1 "]%string)) /\
    solve_file 50 NonChrono (nc BK) never 0 (unlines (map txt ["p cnf 2 1"; "d 2 2"; "1=1 2=1 "]%string)) = Undef OobAtom.
Proof. exists f_open. split; vm_compute; reflexivity. Qed.
Print Assumptions C34_no_zero_refuted.

(** If a variable is not used then the domain lines are there but the solver, which goes by their
    order, reads out of bounds. *)
Theorem C34_gap_refuted :
  exists n f t t', (forall c z, In c f -> In z c -> 1 <= Z.abs z <= n) /\ (exists b, cnf_holds b f) /\ bool_file n f t /\
    boolean2finite t = Ok t' /\
    solve_file 50 NonChrono (nc BK) never 0 t' = Undef OobAtom /\
    solve_file 50 NonChrono (wl VSIDS) never 0 t' = Undef OobAtom /\
    solve_file 50 Chrono (nc BK) never 0 t' = Undef OobAtom.
Proof.
  exists 3, [[1; 3]; [-3]], f_gap. eexists. split; [|split; [|split; [apply (bool_layout_file 3 [[1; 3]; [-3]])|]]].
  - intros c z [<-|[<-|[]]] Hz; simpl in Hz; intuition lia.
  - exists (fun v => v =? 1). intros c [<-|[<-|[]]]; [exists 1|exists (-3)]; (split; [left; reflexivity|reflexivity]).
  - split; [vm_compute; reflexivity|]. repeat split; vm_compute; reflexivity.
Qed.
Print Assumptions C34_gap_refuted.
