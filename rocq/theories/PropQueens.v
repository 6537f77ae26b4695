(** * C92: which queens problems have solutions *)

From Coq Require Import Ascii String Permutation.
From Verif Require Import Spec Outcome State ModelBuild ModelSearch Observe Cases TextSpec ModelText ModelRead CliSpec ModelCli EncodeSpec ModelEncode
  ModelMenu ModelMain MainSpec MainFacts BenchSpec ModelBench Bench3 BenchRuns FileCases Queens PropBench.
#[local] Open Scope char_scope.
#[local] Open Scope list_scope.
#[local] Open Scope Z_scope.

(** Queens in the columns [1 .. n] and rows [0 .. n - 1] that do not attack each other. *)
Definition placement (n : Z) (a : assignment) : Prop := (forall x, 1 <= x <= n -> 0 <= a x < n) /\ pairwise n a queens_apart.

Theorem C92_solvable n : 2 <= n -> (exists a, placement n a) <-> 4 <= n.
Proof.
  intro H. split; [|intro; apply queens_solvable; auto]. intros (a & G). destruct (Z_lt_ge_dec n 4); [|lia].
  exfalso. apply (few_queens n a); [lia|exact G].
Qed.
Print Assumptions C92_solvable.

(** The solver on a file of Nqueens.cc: for four or more queens it never prints UNSAT, for two or
    three it never prints SAT. *)
Theorem C92_run args c m w f n :
  dispatch args = Ok (SolveFinite c m) -> c_file c = Some f -> files_of w f = Some (queens_file n) -> 0 <= c_clause_size c -> missing_return w = true ->
  2 <= n <= 800 ->
  exists N v rest ds us bs es k r,
    (v = txt "SAT" /\ 4 <= n /\ (exists a ls, placement n a /\ rest = model_lines (c_log c) ls /\
        if lazy_of c then forall l, In l ls -> lit_holds a l else Permutation ls (lines_of n a)) \/
     v = txt "UNSAT" /\ n < 4 /\ rest = [] \/
     v = txt "TIMEOUT" /\ rest = [] /\ exists i, late_at w (c_time c) i = true) /\
    forall fuel, (N <= fuel)%nat ->
      main fuel args w =
      Ok (mkRan (solver_screen f (time1 w) (time2 w) (time3 w) ((if c_log c then logged w else []) ++ early c m v)
                   (answer_lines v ds us bs es n k r ++ rest)) 0 (files_of w)).
Proof. exact (queens_decided args c m w f n). Qed.
Print Assumptions C92_run.

(** The clauses of nqueens_sat.cc. *)
Theorem C92_sat N : 1 <= N -> (exists b, cnf_holds b (sat_cnf N)) <-> N = 1 \/ 4 <= N.
Proof.
  intro H. split.
  - intros (b & B). apply (C58_board N b ltac:(lia)) in B. destruct (Z_lt_ge_dec N 4); [|lia]. destruct (Z.eq_dec N 1); [auto|].
    exfalso. apply (square_few N _ ltac:(lia) B).
  - intro C. assert (G : exists q, queens_board N q).
    { destruct C as [->|C].
      - exists (fun _ _ => true). split; [intros i Hi; exists 0; split; [lia|reflexivity]|]. split; [intros i Hi; exists 0; split; [lia|reflexivity]|].
        intros i j k l A1 A2 A3 A4 _ _ X. exfalso. apply X. f_equal; lia.
      - destruct (queens_solvable N C) as (a & G). exists (fun i j => a (i + 1) =? j). apply board_square; [lia|exact G]. }
    destruct G as (q & (G1 & G2 & G3)). exists (fun v => q ((v - 1) / N) ((v - 1) mod N)). apply (C58_board N _ ltac:(lia)).
    assert (E : forall i j, 0 <= j < N -> q ((i * N + j + 1 - 1) / N) ((i * N + j + 1 - 1) mod N) = q i j).
    { intros i j Hj. replace (i * N + j + 1 - 1) with (j + i * N) by lia. rewrite Z.div_add, Z.mod_add by lia. rewrite Z.div_small, Z.mod_small by lia. reflexivity. }
    split; [|split].
    + intros i Hi. destruct (G1 i Hi) as (j & Hj & Q). exists j. split; [exact Hj|rewrite E; auto].
    + intros j Hj. destruct (G2 j Hj) as (i & Hi & Q). exists i. split; [exact Hi|rewrite E; auto].
    + intros i j k l Hi Hj Hk Hl. rewrite !E by lia. intros Q1 Q2. apply G3; auto.
Qed.
Print Assumptions C92_sat.

(** Three queens: UNSAT; four and five: SAT. *)
Example C92_case :
  verdict_of (solve_file 200 NonChrono (nc BK) never 0 (queens_file 3)) = Some (UNSAT, 4, None) /\
  verdict_of (solve_file 200 NonChrono (nc BK) never 0 (queens_file 5)) = Some (SAT, 0, Some true).
Proof. split; vm_compute; reflexivity. Qed.
