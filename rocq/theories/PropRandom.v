(** * Theorems about the generators of random Boolean problems

    [fixed_dimacs w n m len] and [constant_dimacs w n m] are what the functions dimacs of
    fixed_clauses.py and dimacs_formula of constant_probability.py return when the random numbers
    of the run are [w]; [fixed_main w n m] is what the program fixed_clauses.py prints. *)

From Coq Require Import Ascii String Sorted.
From Verif Require Import Spec Outcome State ModelBuild ModelSearch Observe Cases TextSpec ModelText ModelRead EncodeSpec ModelEncode ModelB2f
  Text Read Encode EncodeMore B2f ConvertCases FileCases RandomSpec ModelRandom RandomFacts.
#[local] Open Scope char_scope.
#[local] Open Scope list_scope.
#[local] Open Scope Z_scope.

(** ** C87: clauses of fixed length *)

(** Whatever is drawn, the text is a DIMACS file with the number of clauses, their length and the
    variables that were asked for; and every such problem can come out. *)
Theorem C87_fixed w n m len : 1 <= n -> 0 <= m -> 0 <= len ->
  exists f t, fixed_dimacs w n m len = Some t /\ fixed_shape n m len f /\ bool_file n f t.
Proof.
  intros Hn Hm Hl. destruct (fixed_formula_some w n m len Hn Hm Hl) as (f & E & S). exists f, (sat_text n m f).
  unfold fixed_dimacs. rewrite E. split; [reflexivity|]. split; [exact S|]. apply sat_bool_file. apply S.
Qed.
Print Assumptions C87_fixed.

Theorem C87_fixed_all n m len f : fixed_shape n m len f -> exists w t, fixed_dimacs w n m len = Some t /\ bool_file n f t.
Proof.
  intro S. destruct (fixed_all n m len f S) as (w & E). exists w, (sat_text n m f). unfold fixed_dimacs. rewrite E.
  split; [reflexivity|]. apply sat_bool_file. apply S.
Qed.
Print Assumptions C87_fixed_all.

Theorem C87_fixed_error w n m len : n < 1 -> 1 <= m -> 1 <= len -> fixed_dimacs w n m len = None.
Proof. intros Hn Hm Hl. unfold fixed_dimacs. rewrite (fixed_error w n m len Hn Hm Hl). reflexivity. Qed.
Print Assumptions C87_fixed_error.

Example C87_fixed_case :
  fixed_dimacs (fun k => nth k [0; 2; 3; 0; 1; 1; 5; 9; 13; 1; 0; 0] 0) 4 2 3 = Some (txt "p cnf 4 2" ++ [LF] ++ txt "-1 3 4 0" ++ [LF] ++ txt "2 -2 -2 0" ++ [LF]) /\
  fixed_shape 4 2 3 [[-1; 3; 4]; [2; -2; -2]].
Proof.
  split; [vm_compute; reflexivity|]. split; [reflexivity|]. intros c [<-|[<-|[]]]; (split; [reflexivity|]); intros z Hz; simpl in Hz; intuition lia.
Qed.

(** With three literals in each clause, if every variable occurs, then the text can be converted by
    Boolean2Finite, and the solver that is run on the result solves the problem that was drawn. *)
Theorem C87_fixed_convert w n m t f : 1 <= n <= int_max -> 1 <= m <= int_max ->
  fixed_dimacs w n m 3 = Some t -> bool_file n f t -> (forall v, 1 <= v <= n -> occurs f v) ->
  exists t', boolean2finite t = Ok t' /\ (satisfiable (finite_of n f) <-> exists b, cnf_holds b f) /\
    forall fuel md c clk r, solve_file fuel md c clk r t' = solve fuel md c clk r (finite_of n f).
Proof.
  intros Hn Hm E BF O. destruct (fixed_formula_some w n m 3 ltac:(lia) ltac:(lia) ltac:(lia)) as (g & Eg & S).
  unfold fixed_dimacs in E. rewrite Eg in E. injection E as <-.
  destruct (bool_file_unique _ _ _ _ _ BF (sat_bool_file n m g (proj1 S))) as (_ & ->).
  pose proof (fixed_bool_cnf n m 3 g S ltac:(lia) O) as BC.
  assert (NE : g <> []) by (intros ->; destruct S as (L & _); simpl in L; lia).
  assert (LG : Z.of_nat (length g) <= int_max) by (destruct S as (L & _); lia).
  destruct (b2f_written n g _ BC NE ltac:(lia) BF (fixed_lines n m g 3000 S ltac:(lia) ltac:(lia) ltac:(lia))) as (t' & E & R & L).
  exists t'. split; [exact E|]. split; [apply finite_sat; auto; lia|]. intros fuel md c clk r.
  apply solve_accepted; auto; [apply finite_wf; auto; lia|apply finite_fits; auto; lia|apply readable_accepted; auto; apply finite_fits; auto; lia|].
  apply L. apply (fixed_lines n m g 1500 S); lia.
Qed.
Print Assumptions C87_fixed_convert.

(** The program adds an empty line to the text.  Boolean2Finite makes it an empty line of its
    output, and the solver takes that for a clause: no SAT passes the check of the model, and with
    -wl no run ends regularly. *)
Theorem C87_printed w n m : 1 <= n <= int_max -> 1 <= m <= int_max ->
  exists t t', fixed_main w n m = Some t /\ boolean2finite t = Ok t' /\
    (forall fuel md c clk r rep s, solve_file fuel md c clk r t' = Ok (rep, s) -> r_verdict rep = SAT -> r_verified rep = Some false) /\
    (forall fuel md c clk r x, watch c = true -> solve_file fuel md c clk r t' <> Ok x).
Proof.
  intros Hn Hm. destruct (fixed_formula_some w n m 3 ltac:(lia) ltac:(lia) ltac:(lia)) as (f & E & S).
  destruct (fixed_spoiled n m f S Hn Hm) as (t' & Et & Sp1 & Sp2). exists (sat_text n m f ++ [LF]), t'.
  unfold fixed_main, fixed_dimacs. rewrite E. auto.
Qed.
Print Assumptions C87_printed.

Theorem C87_printed_refuted :
  exists w n m t f t', fixed_main w n m = Some (t ++ [LF]) /\ bool_file n f t /\ (forall v, 1 <= v <= n -> occurs f v) /\ (exists b, cnf_holds b f) /\
    boolean2finite (t ++ [LF]) = Ok t' /\
    verdict_of (solve_file 50 NonChrono (nc BK) never 0 t') = Some (SAT, 0, Some false) /\
    solve_file 50 NonChrono (wl VSIDS) never 0 t' = Undef OobClause.
Proof.
  exists (fun k => Z.of_nat k), 2, 1, (sat_text 2 1 [[1; -2; 1]]), [[1; -2; 1]]. eexists.
  split; [vm_compute; reflexivity|]. split; [apply sat_bool_file; reflexivity|]. split; [|split; [|split; [vm_compute; reflexivity|]]].
  - intros v Hv. assert (v = 1 \/ v = 2) as [->| ->] by lia; [exists [1; -2; 1], 1|exists [1; -2; 1], (-2)]; repeat split; simpl; auto.
  - exists (fun _ => true). intros c [<-|[]]. exists 1. split; [left; auto|]. reflexivity.
  - split; vm_compute; reflexivity.
Qed.
Print Assumptions C87_printed_refuted.

(** ** C87: constant probability *)

Theorem C87_constant w n m : 0 <= n -> 1 <= m ->
  exists f t v, constant_dimacs w n m = Some (t, v) /\ constant_shape n m f /\ bool_file n f t /\ variables_count f v.
Proof.
  intros Hn Hm. destruct (constant_some w n m Hn Hm) as (f & v & E & S & V). exists f, (sat_text n m f), v. split; [exact E|]. split; [exact S|]. split; [|exact V].
  apply sat_bool_file. apply S.
Qed.
Print Assumptions C87_constant.

Theorem C87_constant_all n m f : 0 <= n -> 1 <= m -> constant_shape n m f ->
  exists w t v, constant_dimacs w n m = Some (t, v) /\ bool_file n f t.
Proof.
  intros Hn Hm S. destruct (constant_all n m f Hn Hm S) as (w & v & E). exists w, (sat_text n m f), v. split; [exact E|]. apply sat_bool_file. apply S.
Qed.
Print Assumptions C87_constant_all.

Theorem C87_constant_error w n : constant_dimacs w n 0 = None.
Proof. reflexivity. Qed.
Print Assumptions C87_constant_error.

(** A clause may come out empty; then the problem has no model, but after the conversion the
    solver never says so with -wl, and the others may report SAT. *)
Theorem C87_constant_empty w n m t v f : 0 <= n <= int_max -> 1 <= m <= int_max ->
  constant_dimacs w n m = Some (t, v) -> bool_file n f t -> lines_below 1500 t -> In [] f ->
  (forall b, ~ cnf_holds b f) /\
  exists t', boolean2finite t = Ok t' /\
    (forall fuel md c clk r rep s, solve_file fuel md c clk r t' = Ok (rep, s) -> r_verdict rep = SAT -> r_verified rep = Some false) /\
    (forall fuel md c clk r x, watch c = true -> solve_file fuel md c clk r t' <> Ok x).
Proof.
  intros Hn Hm E BF LB I. destruct (constant_some w n m ltac:(lia) ltac:(lia)) as (g & v' & Eg & S & _). rewrite Eg in E. injection E as <- _.
  destruct (bool_file_unique _ _ _ _ _ BF (sat_bool_file n m g (proj1 S))) as (_ & ->). split.
  - intros b H. destruct (H [] I) as (z & [] & _).
  - destruct (constant_spoiled n m g S Hn Hm LB I) as (t' & Et & Sp). exists t'. split; [exact Et|]. exact Sp.
Qed.
Print Assumptions C87_constant_empty.

Theorem C87_constant_empty_refuted :
  exists w n m t v f t', constant_dimacs w n m = Some (t, v) /\ bool_file n f t /\ (forall b, ~ cnf_holds b f) /\ boolean2finite t = Ok t' /\
    verdict_of (solve_file 50 NonChrono (nc BK) never 0 t') = Some (SAT, 0, Some false).
Proof.
  exists (fun k => nth k [0; 0; 0; 1; 1; 1] 0), 2, 2, (sat_text 2 2 [[-1; 2]; []]), 2, [[-1; 2]; []]. eexists.
  split; [vm_compute; reflexivity|]. split; [apply sat_bool_file; reflexivity|]. split; [|split; [vm_compute; reflexivity|vm_compute; reflexivity]].
  intros b H. destruct (H [] ltac:(right; left; auto)) as (z & [] & _).
Qed.
Print Assumptions C87_constant_empty_refuted.

Example C87_constant_case :
  constant_dimacs (fun k => nth k [0; 0; 1; 0; 0; 0; 1; 1; 1] 0) 3 2 = Some (txt "p cnf 3 2" ++ [LF] ++ txt "-1 -3 0" ++ [LF] ++ txt "1 0" ++ [LF], 2) /\
  constant_shape 3 2 [[-1; -3]; [1]].
Proof.
  split; [vm_compute; reflexivity|]. split; [reflexivity|]. intros c [<-|[<-|[]]]; split.
  - repeat constructor.
  - intros z Hz; simpl in Hz; intuition lia.
  - repeat constructor.
  - intros z Hz; simpl in Hz; intuition lia.
Qed.
